(** Model of [lambeq/experimental/discocirc/reader.py]: from pregroup trees and coreferences to a DisCoCirc diagram.
    Simplifications: the parser and the coreference resolver are inputs (a tree for each sentence; tokens and clusters); the type check of the parser in [__init__] and the two methods that raise
    NotImplementedError are left out; a set whose iteration order does not matter is a list; the [parent] attribute of the noun added by [_sentence2tree] is [None] (the code stores an empty list). *)
From Coq Require Import DecimalString.
From Verif Require Import PyBase TyModel DiagModel MiscModel TreeModel.
Open Scope string_scope. Set Implicit Arguments. Unset Strict Implicit.

Definition NOUN : ty := [a_n].
Definition null {A} (l : list A) : bool := match l with [] => true | _ => false end.
Definition memZ (i : Z) (l : list Z) : bool := existsb (Z.eqb i) l.
(** [enumerate] *)
Definition enum {A} (l : list A) : list (nat * A) := combine (seq 0 (List.length l)) l.

(** 102-106: a root of another type is given a missing noun *)
Definition fix_root (len : nat) (n : node) : node :=
  let 'Node w i t p cs := n in
  if ty_eqb t [a_s] || ty_eqb t [a_n] then n else Node w i [a_s] p (cs ++ [Node "" (Z.of_nat len - 1) [a_n] None []])%list.

(** 127-168 [_tree2frames_rec]: the first result is an identity or a box *)
Inductive piece := PId (t : ty) | PBox (b : box).
Definition piece_diag (p : piece) : diagram := match p with PId t => id t | PBox b => to_diag b end.
Definition piece_comps (p : piece) : list (comp box) := match p with PId _ => [] | PBox b => [CBox b] end.
Fixpoint frames_rec (pruned : list Z) (n : node) : piece * list box * list Z :=
  let 'Node w i t _ cs := n in
  if ty_eqb t NOUN && null cs && memZ i pruned then (PId [], [], [])
  else if ty_eqb t NOUN && null cs then (PId NOUN, [Box w [] NOUN 0], [i])
  else
    let subs := map (frames_rec pruned) cs in
    let subdiags := List.concat (map (fun x => piece_comps (fst (fst x))) subs) in
    let nouns := List.concat (map (fun x => snd (fst x)) subs) in
    let noun_inds := List.concat (map snd subs) in
    let d := filter (fun a : atom => negb (snd a =? 0)%Z) t in
    if null nouns && null d then (PId [], [], [])
    else
      let u := (ty_pow NOUN (List.length nouns) ++ rot (-1) d)%list in
      if null subdiags then (PBox (Box w u u 0), nouns, noun_inds)
      else (PBox (Frame w u u subdiags 0), nouns, noun_inds).

(** ** Matching wires: 205-223 and 384-397 *)
Section Match.
  Variables (K : Type) (eqk : K -> K -> bool).
  (** [noun2wire], [pre_ancillae_count], the noun boxes and identifiers so far, [ancilla_nouns], [wire_ids] *)
  Record mstate := MS { m_dict : list (K * nat); m_new : nat; m_boxes : list box; m_inds : list K; m_anc : list nat; m_ids : list nat }.
  Definition assign (nouns : list box) (st : mstate) (jn : nat * K) : res mstate :=
    let '(j, nid) := jn in
    do st' <- match d_get eqk nid (m_dict st) with
              | Some _ => Ok st
              | None => match nth_error nouns j with
                        | None => Err IndexError
                        | Some b => Ok (MS (d_set eqk nid (List.length (m_dict st)) (m_dict st)) (S (m_new st)) (m_boxes st ++ [b])%list (m_inds st ++ [nid])%list (m_anc st) (m_ids st))
                        end
              end;
    match d_get eqk nid (m_dict st') with
    | None => Err KeyError
    | Some w => Ok (MS (m_dict st') (m_new st') (m_boxes st') (m_inds st') (filter (fun v => negb (v =? w)%nat) (m_anc st')) (m_ids st' ++ [w])%list)
    end.
  Definition assign_all (dict : list (K * nat)) (boxes : list box) (inds : list K) (nouns : list box) (nids : list K) : res mstate :=
    foldM (assign nouns) (enum nids) (MS dict 0 boxes inds (map snd dict) []).
End Match.
Fixpoint insert_nat (x : nat) (l : list nat) : list nat := match l with [] => [x] | y :: l' => if (x <=? y)%nat then x :: l else y :: insert_nat x l' end.
Definition sort_nat (l : list nat) : list nat := fold_right insert_nat [] l.
(** 224, 397 *)
Definition all_ids {K} (m : mstate K) : list nat := (sort_nat (m_anc m) ++ m_ids m)%list.
(** 226-232, 398-405 *)
Definition lookup0 (ids : list nat) : list (nat * nat) := fold_left (fun d '(i, w) => d_set Nat.eqb w (List.length ids - i - 1)%nat d) (enum (rev (sort_nat ids))) [].
Definition perm_next (st : list (nat * nat) * list nat) (w : nat) : res (list (nat * nat) * list nat) :=
  let '(d, p) := st in match d_get Nat.eqb w d with None => Err KeyError | Some k => Ok (d_set Nat.eqb w (k + 1)%nat d, (p ++ [k])%list) end.
Definition perm_list (ids : list nat) : res (list nat) := rmap snd (foldM perm_next ids (lookup0 ids, [])).

(** ** 170-269 [_tree2sandwiches_rec] *)
Definition oZ_eqb (a b : option Z) : bool := opt_eqb a b.
(** decimal numerals *)
Definition dec (n : nat) : string := NilEmpty.string_of_uint (Nat.to_uint n).
(** the loop over the children: subdiagrams, noun boxes, noun ids, [noun2wire], [noun_cursor] *)
Definition sstate := (list diagram * list box * list (option Z) * list (option Z * nat) * option Z)%type.
Definition nn (k : nat) : ty := ty_pow NOUN k.
Definition sand_child (st : sstate) (typ : ty) (r : diagram * list box * list (option Z) * option Z) : res sstate :=
  let '(subs, nouns, inds, dict, cur) := st in
  let '(cd, cnouns, cinds, cand) := r in
  let cur' := if ty_eqb typ NOUN then cand else cur in
  do m <- assign_all oZ_eqb dict nouns inds cnouns cinds;
  let ids := all_ids m in
  do p <- perm_list ids;
  do permute <- permutation (nn (List.length ids)) p;
  do x <- d_then permute (tensor (id (nn (List.length (m_anc m)))) cd);
  do y <- d_then x (d_dagger permute);
  Ok ((subs ++ [y])%list, m_boxes m, m_inds m, m_dict m, cur').
Definition has_layers (d : diagram) : bool := negb (null (layers d)).
(** 242-267 *)
Definition sand_mid (word : string) (fol : bool) (k : nat) (big : diagram) (x : nat * diagram) : res diagram :=
  let '(i, sub) := x in
  do a <- d_then big (tensor sub (id (nn (k - List.length (cod sub)))));
  d_then a (to_diag (Box (word ++ (if fol then "$_{" ++ dec (i + 1) ++ "}$" else "")) (cod a) (cod a) 0)).
Definition sand_build (word : string) (fol : bool) (subs : list diagram) (k : nat) : res diagram :=
  let top := to_diag (Box (word ++ (if fol && negb (null subs) then "$_{top}$" else "")) (nn k) (nn k) 0) in
  do big <- foldM (sand_mid word fol k) (enum (removelast subs)) top;
  match rev subs with
  | [] => Ok big
  | sub :: _ =>
      do a <- d_then big (tensor sub (id (nn (k - List.length (cod sub)))));
      d_then a (to_diag (Box (word ++ (if fol then "$_{bottom}$" else "")) (cod a) (cod a) 0))
  end.
Definition has_noun_arg (t : ty) : bool := existsb (fun a : atom => (fst a =? "n") && ((snd a =? 1)%Z || (snd a =? -1)%Z)) t.
Fixpoint sand_rec (pruned : list Z) (fol : bool) (n : node) (prev : option Z) : res (diagram * list box * list (option Z) * option Z) :=
  let 'Node w i t _ cs := n in
  if ty_eqb t NOUN && null cs && memZ i pruned then Ok (id [], [], [], prev)
  else if ty_eqb t NOUN && null cs then Ok (id NOUN, [Box w [] NOUN 0], [Some i], Some i)
  else
    let st0 : sstate := if has_noun_arg t && (match prev with Some _ => true | None => null pruned end)
                        then ([], [Box "" [] NOUN 0], [prev], [(prev, 0)], prev) else ([], [], [], [], prev) in
    do (st : sstate) <- (fix go (cs : list node) (st : sstate) : res sstate :=
                match cs with
                | [] => Ok st
                | c :: cs' => do r <- sand_rec pruned fol c (snd st); do st' <- sand_child st (n_typ c) r; go cs' st'
                end) cs st0;
    let '(subs, nouns, inds, dict, cur) := st in
    if null dict then Ok (id [], [], [], cur)
    else do big <- sand_build w fol (filter has_layers subs) (List.length dict); Ok (big, nouns, inds, cur).

(** ** Pruning: 271-306 *)
Fixpoint get_index (s : list string) (w : string) : option nat := match s with [] => None | v :: s' => if (v =? w) then Some 0 else option_map S (get_index s' w) end.
Fixpoint first_in (i : nat) (sentences : list (list string)) (w : string) : option (nat * nat) :=
  match sentences with [] => None | s :: ss => match get_index s w with Some j => Some (i, j) | None => first_in (S i) ss w end end.
Fixpoint push {A} (i : nat) (x : A) (l : list (list A)) : res (list (list A)) :=
  match l, i with [], _ => Err IndexError | b :: l', O => Ok ((b ++ [x])%list :: l') | b :: l', S i' => rmap (cons b) (push i' x l') end.
Fixpoint prune_corefs (i j : nat) (corefs : list (list (list nat))) (acc : list (list nat)) : res (list (list nat)) :=
  match corefs with
  | [] => Ok acc
  | p :: ps =>
      match nth_error p i with
      | None => Ok acc
      | Some m => if existsb (Nat.eqb j) m
                  then foldM (fun acc '(h, hw) => match hw with x :: _ => if negb (h =? i)%nat then push h x acc else Ok acc | [] => Ok acc end) (enum p) acc
                  else prune_corefs i j ps acc
      end
  end.
Definition prune_indices (sentences : list (list string)) (corefs : list (list (list nat))) (pnouns : list string) : res (list (list nat)) :=
  let initial := List.concat (map (fun w => match first_in 0 sentences w with Some x => [x] | None => [] end) pnouns) in
  foldM (fun acc '(i, j) => do acc' <- push i j acc; prune_corefs i j corefs acc') initial (repeat [] (List.length sentences)).

(** ** Reindexing: 419-444 *)
Fixpoint scan_tok (toks : list string) (j : nat) (w : string) : nat := match toks with [] => j | t :: ts => if (t =? w) then j else scan_tok ts (S j) w end.
Fixpoint reindices (orig : list string) (j : nat) (ps : list (Z * string)) : list (Z * nat) :=
  match ps with [] => [] | (i, w) :: ps' => let j' := scan_tok (skipn j orig) j w in (i, j') :: reindices orig (S j') ps' end.
(** the dictionary: a later entry with the same key wins *)
Definition calculate_reindices (orig : list string) (words : list string) (is : list Z) : list (Z * nat) := fold_left (fun d '(i, j) => d_set Z.eqb i j d) (reindices orig 0 (combine is words)) [].
Fixpoint reindex (d : list (Z * nat)) (n : node) : res node :=
  let 'Node w i t p cs := n in
  match d_get Z.eqb i d with
  | None => Err KeyError
  | Some j => do cs' <- (fix go (cs : list node) : res (list node) := match cs with [] => Ok [] | c :: cs1 => do c' <- reindex d c; do r <- go cs1; Ok (c' :: r) end) cs; Ok (mk w (Z.of_nat j) t p cs')
  end.

(** ** [text2circuit]: 345-417 *)
Definition ent := (nat * option Z)%type.
Definition ent_eqb (a b : ent) : bool := (fst a =? fst b)%nat && oZ_eqb (snd a) (snd b).
(** [corefd.get(nid, nid)] *)
Definition resolve (corefd : list (mention * mention)) (e : ent) : ent :=
  match e with
  | (i, Some z) => if (z <? 0)%Z then e else match d_get mention_eqb (i, Z.to_nat z) corefd with Some (a, b) => (a, Some (Z.of_nat b)) | None => e end
  | _ => e
  end.
Definition occurrences (w : nat) (ids : list nat) : nat := List.length (filter (Nat.eqb w) ids).
(** 380-416 for a sentence whose diagram, noun boxes and resolved noun identifiers are given *)
Definition circ_step (st : diagram * list (ent * nat) * list box) (x : diagram * list box * list ent) : res (diagram * list (ent * nat) * list box) :=
  let '(big, dict, boxes) := st in
  let '(sd, nouns, nids) := x in
  do m <- assign_all ent_eqb dict boxes [] nouns nids;
  let ids := all_ids m in
  do p <- perm_list ids;
  match ids with
  | [] => Err ValueError
  | _ =>
      let spidering := tensor_list (id []) (map (fun w => if (occurrences w ids =? 1)%nat then id NOUN else to_diag (Spider a_n 1 (occurrences w ids))) (seq 0 (S (list_max ids)))) in
      do permute <- permutation (nn (List.length ids)) p;
      do matcher <- d_then spidering permute;
      do a <- d_then (tensor big (id (nn (m_new m)))) matcher;
      do b <- d_then a (tensor (id (nn (List.length (m_anc m)))) sd);
      do c <- d_then b (d_dagger matcher);
      Ok (c, m_dict m, m_boxes m)
  end.
(** 110-125 *)
Definition tree2circuital (sandwich fol : bool) (pruned : list Z) (t : node) : res (diagram * list box * list (option Z)) :=
  if sandwich then do (r : diagram * list box * list (option Z) * option Z) <- sand_rec pruned fol t None; Ok (fst r)
  else let '(p, nouns, nids) := frames_rec pruned t in Ok (piece_diag p, nouns, map Some nids).
(** 362-383 *)
Definition prepare (rules : list rule) (sandwich fol : bool) (corefd : list (mention * mention)) (pruned : list (list nat)) (i : nat) (s : list string) (parsed : node) : res (diagram * list box * list ent) :=
  let t := fix_root (List.length s) parsed in
  do ws <- get_words t;
  do is <- get_word_indices t;
  do t' <- reindex (calculate_reindices s ws is) (rewrite_all rules t);
  do ps <- match nth_error pruned i with Some ps => Ok (map Z.of_nat ps) | None => Err IndexError end;
  do (r : diagram * list box * list (option Z)) <- tree2circuital sandwich fol ps t';
  let '(sd, nouns, nids) := r in
  Ok (sd, nouns, map (fun nid => resolve corefd (i, nid)) nids).
Definition count_values (d : list (mention * mention)) : list (mention * nat) :=
  fold_left (fun acc p => match d_get mention_eqb (snd p) acc with Some n => d_set mention_eqb (snd p) (S n) acc | None => d_set mention_eqb (snd p) 1 acc end) d [].
(** 345-417 *)
Definition all_pruned (sentences : list (list string)) (corefs : list (list (list nat))) (pnouns : list string) (min_freq : Z) : res (list (list nat)) :=
  let rare := map fst (filter (fun p => (Z.of_nat (snd p) <? min_freq)%Z) (count_values (dict_from_corefs corefs))) in
  do ws <- mapM (fun m : mention => match nth_error sentences (fst m) with Some s => match nth_error s (snd m) with Some w => Ok w | None => Err IndexError end | None => Err IndexError end) rare;
  prune_indices sentences corefs (pnouns ++ ws)%list.
Definition text2circuit (sentences : list (list string)) (corefs : list (list (list nat))) (parsed : list node) (sandwich : bool) (pnouns : list string) (min_freq : Z)
    (rewrite_rules : option (list (rule + string))) (fol : bool) : res diagram :=
  do pruned <- all_pruned sentences corefs pnouns min_freq;
  do rules <- match init_rules rewrite_rules with (rs, Ok _) => Ok rs | (_, Err e) => Err e end;
  do (st : diagram * list (ent * nat) * list box) <-
    foldM (fun st '(i, (s, t)) => do x <- prepare rules sandwich fol (dict_from_corefs corefs) pruned i s t; circ_step st x) (enum (combine sentences parsed)) (id [], [], []);
  let '(big, _, boxes) := st in
  d_then (tensor_list (id []) (map to_diag boxes)) big.
