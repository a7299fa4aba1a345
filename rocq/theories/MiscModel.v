(** Three small functions:
    - [lambeq/experimental/discocirc/coref_resolver.py: CoreferenceResolver.dict_from_corefs] (66-97);
    - [lambeq/text2diagram/pregroup_tree_converter.py: str_to_type] (470-482);
    - [lambeq/backend/converters/tk.py: Circuit.rename_units, get_counts] (128-195).
    Python dictionaries are association lists in insertion order. *)
From Coq Require Import Ascii.
From Verif Require Import PyBase TyModel.
Set Implicit Arguments.

Section Dict.
  Variables (K V : Type) (eqk : K -> K -> bool).
  Definition d_get (k : K) (m : list (K * V)) : option V :=
    match find (fun p => eqk (fst p) k) m with Some p => Some (snd p) | None => None end.
  Definition d_mem (k : K) (m : list (K * V)) : bool := existsb (fun p => eqk (fst p) k) m.
  (** [d[k] = v]: an existing key keeps its place *)
  Fixpoint d_set (k : K) (v : V) (m : list (K * V)) : list (K * V) :=
    match m with [] => [(k, v)] | p :: m' => if eqk (fst p) k then (fst p, v) :: m' else p :: d_set k v m' end.
  Definition d_del (k : K) (m : list (K * V)) : list (K * V) := filter (fun p => negb (eqk (fst p) k)) m.
  Definition d_update (m m2 : list (K * V)) : list (K * V) := fold_left (fun a p => d_set (fst p) (snd p) a) m2 m.
End Dict.

(** ** coreferences *)
Definition mention := (nat * nat)%type.
Definition mention_eqb (a b : mention) : bool := Nat.eqb (fst a) (fst b) && Nat.eqb (snd a) (snd b).
(** 87-88: the list comprehension; [i] is the counter of [enumerate] *)
Fixpoint scorefs (i : nat) (coref : list (list nat)) : list mention :=
  match coref with [] => [] | s :: c => map (fun t => (i, t)) s ++ scorefs (S i) c end.
(** 86-92: one cluster *)
Definition coref_step (d : list (mention * mention)) (coref : list (list nat)) : list (mention * mention) :=
  let ms := scorefs 0 coref in
  match ms with
  | [] => d
  | first :: _ => fold_left (fun a m => if d_mem mention_eqb m a then a else d_set mention_eqb m first a) ms d
  end.
Definition dict_from_corefs (corefs : list (list (list nat))) : list (mention * mention) := fold_left coref_step corefs [].

(** ** types from strings *)
(** [str.split('.')] *)
Fixpoint split_dot (s : string) : list string :=
  match s with
  | EmptyString => [EmptyString]
  | String c s' =>
      if Ascii.eqb c "."%char then EmptyString :: split_dot s'
      else match split_dot s' with [] => [String c EmptyString] | p :: ps => String c p :: ps end
  end.
(** 470-482; a type is a list of atoms (see TyModel.v) *)
Definition str_to_type (s : string) : ty :=
  match split_dot s with
  | [] => []
  | first :: rest =>
      fold_left (fun t r => if String.eqb r "r" then ty_r t else if String.eqb r "l" then ty_l t else t) rest [(first, 0%Z)]
  end.

(** ** post-selection of counts *)
Section Counts.
  Variable V : Type.
  Definition bits := list nat.
  Definition bits_eqb (a b : bits) : bool := if list_eq_dec Nat.eq_dec a b then true else false.
  (** 182-183: [all(...)], which stops at the first disagreement; an index beyond the string raises *)
  Fixpoint agrees (b : bits) (ps : list (nat * nat)) : res bool :=
    match ps with
    | [] => Ok true
    | (i, v) :: ps' =>
        match nth_error b i with
        | None => Err IndexError
        | Some x => if Nat.eqb x v then agrees b ps' else Ok false
        end
    end.
  (** 184-186: the key, [i] being the counter of [enumerate] *)
  Fixpoint key_of (i : nat) (b : bits) (ps : list (nat * nat)) : bits :=
    match b with
    | [] => []
    | x :: b' => if d_mem Nat.eqb i ps then key_of (S i) b' ps else x :: key_of (S i) b' ps
    end.
  (** 179-188 *)
  Fixpoint post_select_loop (counts : list (bits * V)) (ps : list (nat * nat)) (acc : list (bits * V)) : res (list (bits * V)) :=
    match counts with
    | [] => Ok acc
    | (b, c) :: counts' =>
        do a <- agrees b ps;
        post_select_loop counts' ps (if a : bool then d_set bits_eqb (key_of 0 b ps) c acc else acc)
    end.
  Definition post_select (counts : list (bits * V)) (ps : list (nat * nat)) : res (list (bits * V)) := post_select_loop counts ps [].
  (** 189-193: scaling *)
  Variable mul : V -> V -> V.
  Definition scale_counts (counts : list (bits * V)) (s : V) : list (bits * V) := map (fun p => (fst p, mul (snd p) s)) counts.
  (** 175-194: from the results of the backend to the result; one triple (counts, post-selection, scalar) per circuit;
      normalisation is pytket's [probs_from_counts], [norm] here *)
  Definition get_counts (normalize do_post do_scale : bool) (norm : list (bits * V) -> list (bits * V))
      (cs : list (list (bits * V) * list (nat * nat) * V)) : res (list (list (bits * V))) :=
    mapM (fun x => match x with
      | (c0, ps, s) =>
          let c1 := if normalize then norm c0 else c0 in
          do c2 <- (if do_post then post_select c1 ps else Ok c1);
          Ok (if do_scale then scale_counts c2 s else c2)
      end) cs.
End Counts.

(** 128-139 [rename_units], the part on [post_selection]; [ren] holds the renamed classical bits *)
Definition rename_post_selection (ps ren : list (nat * nat)) : res (list (nat * nat)) :=
  let olds := filter (fun p => d_mem Nat.eqb (fst p) ps) ren in
  do new <- mapM (fun p => match d_get Nat.eqb (fst p) ps with Some v => Ok (snd p, v) | None => Err KeyError end) olds;
  let psr := fold_left (fun a p => d_set Nat.eqb (fst p) (snd p) a) new [] in
  let ps' := fold_left (fun a p => d_del Nat.eqb (fst p) a) olds ps in
  Ok (d_update Nat.eqb ps' psr).
