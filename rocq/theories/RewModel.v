(** Model of the box-level rewriting of [lambeq/rewrite/base.py] and of
    [lambeq/rewrite/rewrite_diagram.py: UnifyCodomainRewriter].

    Simplifications: strings are byte strings and [str.lower] is the ASCII lower-casing; the
    containers [words] and [vocabulary] are finite lists tested with [in]; the attribute [name]
    of a box is [b_name]; a [Box] returned by a rule is represented by its one-box diagram. *)
From Coq Require Import Ascii.
From Verif Require Import PyBase TyModel TyFacts DiagModel DiagSpec BoxEq FunctorModel.
Set Implicit Arguments.
Local Open Scope string_scope.
Local Open Scope list_scope.

(** ** Strings *)
Definition lower_ascii (c : ascii) : ascii :=
  let n := nat_of_ascii c in if Nat.leb 65 n && Nat.leb n 90 then ascii_of_nat (n + 32) else c.
(** [str.lower] on ASCII strings *)
Fixpoint lower (s : string) : string :=
  match s with EmptyString => EmptyString | String c s' => String (lower_ascii c) (lower s') end.
Definition mem (w : string) (l : list string) : bool := existsb (String.eqb w) l.

(** the identity object map: base.py 172 and 438-439 *)
Definition id_ob (n : string) : res ty := Ok [(n, 0%Z)].

Definition PLACEHOLDER : string := "<PLACEHOLDER>".

(** an entry of the vocabulary of [UnknownWordsRewriteRule]: a word or a word with its type *)
Inductive ventry := VWord (w : string) | VTyped (w : string) (c : ty).
Definition ventry_eqb (x y : ventry) : bool :=
  match x, y with
  | VWord a, VWord b => String.eqb a b
  | VTyped a c, VTyped b d => String.eqb a b && ty_eqb c d
  | _, _ => false
  end.
Definition vmem (x : ventry) (l : list ventry) : bool := existsb (ventry_eqb x) l.

(** ** The rules *)
Inductive rule :=
| Simple (rcod : ty) (template : diagram) (words : option (list string)) (case_sensitive : bool) (* 129-166 *)
| Coordination (words : list string)                                                            (* 250-270 *)
| Curry                                                                                          (* 287-300 *)
| Collapse (left : bool)                                                                         (* 324-340 *)
| Unknown (vocabulary : list ventry) (unk : string).                                             (* 442-468 *)

(** base.py 168-171 *)
Definition simple_matches (rcod : ty) (words : option (list string)) (cs : bool) (b : box) : bool :=
  let word := if cs then b_name b else lower (b_name b) in
  ty_eqb (b_cod b) rcod && match words with None => true | Some ws => mem word ws end.
(** base.py 174-177 [replace_placeholder] *)
Definition replace_placeholder (name : string) (ar : box) : res diagram :=
  if String.eqb (b_name ar) PLACEHOLDER then Ok (to_diag (Word name (b_cod ar) 0)) else Ok (to_diag ar).
(** base.py 173-182 *)
Definition simple_rewrite (template : diagram) (b : box) : res diagram :=
  F_diag id_ob (replace_placeholder (b_name b)) template.

(** base.py 272-277 *)
Definition thirds (c : ty) : ty * ty * ty :=
  let n := Z.of_nat (List.length c / 3) in
  (py_slice c None (Some n), py_slice c (Some n) (Some (2 * n)%Z), py_slice c (Some (2 * n)%Z) None).
Definition coord_matches (words : list string) (b : box) : bool :=
  if mem (b_name b) words && (List.length (b_cod b) mod 3 =? 0)%nat then
    let '(lt, mid, rt) := thirds (b_cod b) in
    ty_eqb (rot 1 rt) mid && ty_eqb mid (rot (-1) lt)
  else false.
(** base.py 279-284 *)
Definition coord_rewrite (b : box) : res diagram :=
  let '(lt, mid, rt) := thirds (b_cod b) in
  if ty_eqb (rot 1 rt) mid && ty_eqb mid (rot (-1) lt) then
    do c1 <- caps lt mid false; do c2 <- caps mid rt false; do sp <- spider mid 2 1;
    d_then (tensor c1 c2) (tensor (tensor (id lt) sp) (id rt))
  else Err AssertionError.

(** base.py 302-303 *)
Definition curry_matches (b : box) : bool :=
  match b_cod b with
  | [] => false
  | a :: _ => negb (snd a =? 0)%Z || negb (snd (last (b_cod b) a) =? 0)%Z
  end.
(** base.py 306-308: how many leading objects satisfy [p] *)
Fixpoint lead (p : atom -> bool) (c : ty) : nat :=
  match c with [] => 0 | a :: c' => if p a then S (lead p c') else 0 end.
(** base.py 305-321.  [j + 1] is the length of the codomain minus the number of trailing
    objects with negative [z]. *)
Definition curry_rewrite (b : box) : res diagram :=
  let c := b_cod b in
  let i := lead (fun a => (0 <? snd a)%Z) c in
  let j1 := List.length c - lead (fun a => (snd a <? 0)%Z) (rev c) in
  let left := py_slice c None (Some (Z.of_nat i)) in
  let right := py_slice c (Some (Z.of_nat j1)) None in
  let d := rot (-1) left ++ b_dom b ++ rot 1 right in
  let nb := to_diag (Box (b_name b) d (py_slice c (Some (Z.of_nat i)) (Some (Z.of_nat j1))) 0) in
  do nb1 <- (if Nat.eqb (List.length left) 0 then Ok nb else curry nb (Z.of_nat (List.length left)) false);
  if Nat.eqb (List.length right) 0 then Ok nb1 else curry nb1 (Z.of_nat (List.length right)) true.

(** base.py 342-343 *)
Definition collapse_matches (b : box) : bool := negb (Nat.eqb (List.length (b_dom b)) 0).
(** base.py 345-360 *)
Definition collapse_rewrite (left : bool) (b : box) : res diagram :=
  if left then
    let nb := to_diag (Box (b_name b) [] (rot 1 (b_dom b) ++ b_cod b) 0) in
    do c <- cups (b_dom b) (rot 1 (b_dom b)) false;
    d_then (tensor (id (b_dom b)) nb) (tensor c (id (b_cod b)))
  else
    let nb := to_diag (Box (b_name b) [] (b_cod b ++ rot (-1) (b_dom b)) 0) in
    do c <- cups (rot (-1) (b_dom b)) (b_dom b) false;
    d_then (tensor nb (id (b_dom b))) (tensor (id (b_cod b)) c).

Definition is_word (b : box) : bool := match b with Word _ _ _ => true | _ => false end.
(** base.py 470-473 *)
Definition unknown_matches (voc : list ventry) (b : box) : bool :=
  is_word b && negb (vmem (VTyped (b_name b) (b_cod b)) voc) && negb (vmem (VWord (b_name b)) voc).

Definition rule_matches (r : rule) (b : box) : bool :=
  match r with
  | Simple c _ ws cs => simple_matches c ws cs b
  | Coordination ws => coord_matches ws b
  | Curry => curry_matches b
  | Collapse _ => collapse_matches b
  | Unknown voc _ => unknown_matches voc b
  end.
Definition rule_rewrite (r : rule) (b : box) : res diagram :=
  match r with
  | Simple _ t _ _ => simple_rewrite t b
  | Coordination _ => coord_rewrite b
  | Curry => curry_rewrite b
  | Collapse lf => collapse_rewrite lf b
  | Unknown _ unk => Ok (to_diag (Word unk (b_cod b) 0)) (* base.py 475-476 *)
  end.

(** ** The shipped rules: base.py 205-247 *)
Definition aN : atom := ("n", 0%Z).
Definition aS : atom := ("s", 0%Z).
Definition N : ty := [aN].
Definition St : ty := [aS].
Definition Zr (z : Z) (a : atom) : atom := rot_atom z a.
(** grammar.py 330-338: [a << b] and [a >> b] *)
Definition over (a b : ty) : ty := a ++ rot (-1) b.
Definition under (a b : ty) : ty := rot 1 a ++ b.
Definition placeholder (c : ty) : diagram := to_diag (Word PLACEHOLDER c 0).
Definition get (r : res diagram) : diagram := match r with Ok d => d | Err _ => id [] end.

Definition connector_template : res diagram := Ok (to_diag (Cap aS (Zr (-1) aS) false)).
Definition determiner_template : res diagram := Ok (to_diag (Cap aN (Zr (-1) aN) false)).
Definition postadverb_template : res diagram :=
  d_then (placeholder (under St St))
         (tensor (tensor (id (rot 1 St)) (to_diag (Cap (Zr 2 aN) (Zr 1 aN) false))) (id St)).
Definition preadverb_cod : ty := over (under N St) (under N St).
Definition preadverb_template : res diagram :=
  d_then (to_diag (Cap (Zr 1 aN) aN false))
         (tensor (tensor (id (rot 1 N)) (placeholder (over St St))) (id N)).
Definition auxiliary_template : res diagram :=
  caps (py_slice preadverb_cod None (Some 2%Z)) (py_slice preadverb_cod (Some 2%Z) None) false.
Definition prep_template : res diagram :=
  d_then (placeholder (over (under St St) N))
         (tensor (tensor (id (rot 1 St)) (to_diag (Cap (Zr 2 aN) (Zr 1 aN) false))) (id (St ++ rot (-1) N))).
(** base.py 227-228 [_noun_loop] *)
Definition noun_loop : res diagram :=
  do a <- d_then (to_diag (Cap (Zr (-1) aN) (Zr (-2) aN) false)) (to_diag (Swap (Zr (-1) aN) (Zr (-2) aN)));
  d_then (tensor a (id N)) (tensor (id (rot (-2) N)) (to_diag (Cup (Zr (-1) aN) aN false))).
Definition object_template : res diagram :=
  do loop <- noun_loop;
  do x <- d_then (to_diag (Cap (Zr 1 aN) aN false))
            (tensor (tensor (id (rot 1 N)) (to_diag (Spider aN 1 2))) (to_diag (Spider (Zr (-1) aS) 0 1)));
  d_then x (tensor (tensor (id (rot 1 N ++ N)) loop) (id (rot (-1) St))).
Definition subject_template : res diagram :=
  do x <- d_then (to_diag (Cap (Zr 1 aN) aN false)) (tensor (id (rot 1 N)) (to_diag (Spider aN 1 2)));
  d_then x (tensor (tensor (id (rot 1 N ++ N)) (to_diag (Spider (Zr (-1) aS) 0 1))) (id N)).

Definition connector_rule := Simple (over St St) (get connector_template)
  (Some ["and"; "but"; "however"; "if"; "that"; "whether"]) false.
Definition determiner_rule := Simple (over N N) (get determiner_template) (Some ["a"; "an"; "the"]) false.
Definition postadverb_rule := Simple (under (under N St) (under N St)) (get postadverb_template) None false.
Definition preadverb_rule := Simple preadverb_cod (get preadverb_template) None false.
Definition auxiliary_rule := Simple preadverb_cod (get auxiliary_template)
  (Some ["am"; "are"; "be"; "been"; "being"; "is"; "was"; "were"; "did"; "do"; "does"; "'d"; "had"; "has"; "have";
         "may"; "might"; "will"]) false.
Definition prep_rule := Simple (under (under N St) (over (under N St) N)) (get prep_template) None false.
Definition object_rule := Simple (rot 1 N ++ N ++ rot (-2) N ++ rot (-1) St) (get object_template)
  (Some ["that"; "which"; "who"; "whom"; "whose"]) false.
Definition subject_rule := Simple (rot 1 N ++ N ++ rot (-1) St ++ N) (get subject_template)
  (Some ["that"; "which"; "who"; "whom"; "whose"]) false.

(** base.py 369-384, in dictionary order *)
Definition default_rules : list (string * rule) :=
  [("auxiliary", auxiliary_rule); ("connector", connector_rule); ("determiner", determiner_rule);
   ("postadverb", postadverb_rule); ("preadverb", preadverb_rule); ("prepositional_phrase", prep_rule)].
Definition available_rules : list (string * rule) :=
  default_rules ++ [("coordination", Coordination ["and"]); ("curry", Curry);
                    ("object_rel_pronoun", object_rule); ("subject_rel_pronoun", subject_rule)].

(** ** Rewriter *)

(** base.py 431-436 [_ar] with the default [RewriteRule.__call__] (126) *)
Fixpoint rw_ar (rules : list rule) (b : box) : res diagram :=
  match rules with
  | [] => Ok (to_diag b)
  | r :: rs => if rule_matches r b then rule_rewrite r b else rw_ar rs b
  end.
(** base.py 427-429 on a fresh rewriter *)
Definition rewrite (rules : list rule) (d : diagram) : res diagram := F_diag id_ob (rw_ar rules) d.

(** the state of a rewriter: its rules and the caches of its functor *)
Record rewriter := Rewriter { rw_rules : list rule; rw_caches : caches }.
Inductive rule_arg := RRule (r : rule) | RName (s : string).
(** base.py 413-425 [add_rules]: rules before an invalid name stay added *)
Fixpoint add_rules (args : list rule_arg) (rs : list rule) : res unit * list rule :=
  match args with
  | [] => (Ok tt, rs)
  | RRule r :: args' => add_rules args' (rs ++ [r])
  | RName s :: args' =>
      match lookup String.eqb s available_rules with
      | Some r => add_rules args' (rs ++ [r])
      | None => (Err ValueError, rs)
      end
  end.
(** base.py 386-406 [__init__] *)
Definition new_rewriter (rules : option (list rule_arg)) : res rewriter :=
  match rules with
  | None => Ok (Rewriter (map snd default_rules) empty_caches)
  | Some args => let '(r, rs) := add_rules args [] in do _ <- r; Ok (Rewriter rs empty_caches)
  end.
(** base.py 427-429 [__call__] *)
Definition rw_call (d : diagram) (w : rewriter) : res diagram * rewriter :=
  let '(r, s) := ar_diag id_ob (rw_ar (rw_rules w)) d (rw_caches w) in (r, Rewriter (rw_rules w) s).
Inductive rw_op := OAdd (args : list rule_arg) | OCall (d : diagram).
Definition rw_step (o : rw_op) (w : rewriter) : res diagram * rewriter :=
  match o with
  | OAdd args => let '(r, rs) := add_rules args (rw_rules w) in (rmap (fun _ => id []) r, Rewriter rs (rw_caches w))
  | OCall d => rw_call d w
  end.
Fixpoint rw_run (h : list rw_op) (w : rewriter) : list (res diagram) * rewriter :=
  match h with
  | [] => ([], w)
  | o :: h' => let '(r, w1) := rw_step o w in let '(rs, w2) := rw_run h' w1 in (r :: rs, w2)
  end.

(** ** UnknownWordsRewriteRule.from_diagrams: base.py 478-510 *)
Definition d_boxes (d : diagram) : list box := map l_box (layers d).
Definition key (ignore_types : bool) (b : box) : ventry :=
  if ignore_types then VWord (b_name b) else VTyped (b_name b) (b_cod b).
Definition occurrences (ds : list diagram) (ignore_types : bool) : list ventry :=
  map (key ignore_types) (filter is_word (flat_map d_boxes ds)).
Definition counter (l : list ventry) (x : ventry) : nat := List.length (filter (ventry_eqb x) l).
(** the distinct keys of the [Counter] *)
Definition counts_keys (l : list ventry) : list ventry :=
  fold_right (fun x acc => if vmem x acc then acc else x :: acc) [] l.
Definition from_diagrams (ds : list diagram) (min_freq : Z) (unk : string) (ignore_types : bool) : rule :=
  let occ := occurrences ds ignore_types in
  Unknown (filter (fun x => (min_freq <=? Z.of_nat (counter occ x))%Z) (counts_keys occ)) unk.

(** ** UnifyCodomainRewriter: rewrite_diagram.py 85-105, 70-83 *)

(** grammar.py 179-185 [Ty.__str__]: ['.l']/['.r'] repeated |z| times, factors joined by [' @ ']; ['Ty()'] if empty *)
Fixpoint rep_str (s : string) (n : nat) : string := match n with 0 => EmptyString | S n' => append s (rep_str s n') end.
Definition atom_str (a : atom) : string :=
  append (fst a) (rep_str (if (snd a <? 0)%Z then ".l" else ".r") (Z.abs_nat (snd a))).
Definition ty_str (t : ty) : string :=
  match t with
  | [] => "Ty()"
  | a :: t' => fold_left (fun acc x => append (append acc " @ ") (atom_str x)) t' (atom_str a)
  end.
Definition unify_codomain (out : ty) (d : diagram) : res diagram :=
  if ty_eqb (cod d) out then Ok d
  else d_then d (to_diag (Box (append "MERGE_" (ty_str (cod d))) (cod d) out 0)).
Definition unify_codomain_list (out : ty) (ds : list diagram) : res (list diagram) := mapM (unify_codomain out) ds.
