(** Specification of Bobcat's categories and rules (C64, C65), independent of the code. *)
From Coq Require Import Ascii.
From Verif Require Import PyBase BobModel.
Open Scope string_scope. Set Implicit Arguments. Unset Strict Implicit.

(** The categories [Category.parse] can build: an atomic category has an atom, a complex one a slash. *)
Inductive proper : cat -> Prop :=
| proper_at a f v rel : a <> ANone -> proper (At a f v rel)
| proper_sl d r x v rel tr : d = "/"%char \/ d = "\"%char -> proper r -> proper x -> proper (Sl d r x v rel tr).

(** ** Equality: same shape, same atoms and slashes, same features, where S and S[X] count as one *)
Definition free (f : string) : Prop := f = "" \/ f = "X".
Inductive same : cat -> cat -> Prop :=
| same_at a f g v rel v' rel' : f = g \/ (a = AS /\ free f /\ free g) -> same (At a f v rel) (At a g v' rel')
| same_sl d r x r' x' v rel tr v' rel' tr' : same r r' -> same x x' -> same (Sl d r x v rel tr) (Sl d r' x' v' rel' tr').
(** ** Matching: the template with its missing features filled in *)
Inductive fills : cat -> cat -> Prop :=
| fills_at a f g v rel v' rel' : f = "" \/ f = g -> fills (At a f v rel) (At a g v' rel')
| fills_sl d r x r' x' v rel tr v' rel' tr' : fills r r' -> fills x x' -> fills (Sl d r x v rel tr) (Sl d r' x' v' rel' tr').

(** ** Skeletons: categories without features, variables and relations *)
Inductive skel := KA (a : atomk) | KS (d : ascii) (r x : skel).
Fixpoint skeleton (c : cat) : skel := match c with At a _ _ _ => KA a | Sl d r x _ _ _ => KS d (skeleton r) (skeleton x) end.
Notation "x // y" := (KS "/"%char x y) (at level 40, left associativity).
Notation "x \\ y" := (KS "\"%char x y) (at level 40, left associativity).
(** The rules of CCG as the textbook has them: rule, left, right, result. *)
Inductive textbook : prule -> skel -> skel -> skel -> Prop :=
| tb_fa X Y : textbook RFA (X // Y) Y X
| tb_ba X Y : textbook RBA Y (X \\ Y) X
| tb_fc X Y Z : textbook RFC (X // Y) (Y // Z) (X // Z)
| tb_bc X Y Z : textbook RBC (Y \\ Z) (X \\ Y) (X \\ Z)
| tb_bx X Y Z : textbook RBX (Y // Z) (X \\ Y) (X // Z)
| tb_gfc2 X Y Z W : textbook RGFC (X // Y) (Y // Z // W) (X // Z // W)
| tb_gfc3 X Y Z W V : textbook RGFC (X // Y) (Y // Z // W // V) (X // Z // W // V)
| tb_gbx2 X Y Z W : textbook RGBX (Y // Z // W) (X \\ Y) (X // Z // W)
| tb_gbx3 X Y Z W V : textbook RGBX (Y // Z // W // V) (X \\ Y) (X // Z // W // V)
| tb_gbc X Y d Z d' W : textbook RGBC (KS d' (KS d Y Z) W) (X \\ Y) (KS d' (KS d X Z) W).

(** ** Features, variables *)
(** Two categories unify: same skeleton, and the features of S agree unless one of them is the variable feature X. *)
Inductive unifiable : cat -> cat -> Prop :=
| un_at a f g v rel v' rel' : (a = AS -> f = g \/ f = "X" \/ g = "X") -> unifiable (At a f v rel) (At a g v' rel')
| un_sl d r x r' x' v rel tr v' rel' tr' : unifiable r r' -> unifiable x x' -> unifiable (Sl d r x v rel tr) (Sl d r' x' v' rel' tr').
(** the features opposite an X, from left to right; two X's opposite each other give X *)
Fixpoint bindings (l r : cat) : list string :=
  match l, r with
  | At AS f _ _, At _ g _ _ => if (f =? "X")%string then [g] else if (g =? "X")%string then [f] else []
  | Sl _ lr lx _ _ _, Sl _ rr rx _ _ _ => bindings lr rr ++ bindings lx rx
  | _, _ => []
  end%list.
(** the feature [f] once X stands for [g] *)
Definition inst (g f : string) : string := if (f =? "X")%string then (if (g =? "")%string then f else g) else f.
(** the second category is the first one with its variables renamed and X standing for [g] *)
Inductive renamed (rho : nat -> option nat) (g : string) : cat -> cat -> Prop :=
| rn_at a f v rel v' : rho v = Some v' -> renamed rho g (At a f v rel) (At a (inst g f) v' rel)
| rn_sl d r x v rel tr r' x' v' : rho v = Some v' -> renamed rho g r r' -> renamed rho g x x' -> renamed rho g (Sl d r x v rel tr) (Sl d r' x' v' rel 0).
(** the variables [a] and [b] sit at the same place in the two categories *)
Inductive facing : cat -> cat -> nat -> nat -> Prop :=
| fc_here l r : facing l r (c_var l) (c_var r)
| fc_res d lr lx v rel tr d' rr rx v' rel' tr' a b : facing lr rr a b -> facing (Sl d lr lx v rel tr) (Sl d' rr rx v' rel' tr') a b
| fc_arg d lr lx v rel tr d' rr rx v' rel' tr' a b : facing lx rx a b -> facing (Sl d lr lx v rel tr) (Sl d' rr rx v' rel' tr') a b.
(** The rules again, on full categories: rule, left, right, the two categories unified (left first), result;
    [rl], [rr] rename the variables of the left and the right category, [g] is what X stands for. *)
Section Prescribed.
  Variables (rl rr : nat -> option nat) (g : string).
  Inductive prescribed : prule -> cat -> cat -> cat -> cat -> cat -> Prop :=
  | pr_fa X Y v rel tr R X' : renamed rl g X X' -> prescribed RFA (Sl "/" X Y v rel tr) R Y R X'
  | pr_ba X Y v rel tr L X' : renamed rr g X X' -> prescribed RBA L (Sl "\" X Y v rel tr) L Y X'
  | pr_fc X Y v rel tr Y' Z v1 rel1 tr1 X' Z' w : renamed rl g X X' -> renamed rr g Z Z' -> rl v = Some w \/ (rl v = None /\ w = 0) ->
      prescribed RFC (Sl "/" X Y v rel tr) (Sl "/" Y' Z v1 rel1 tr1) Y Y' (Sl "/" X' Z' w None 0)
  | pr_bc X Y v rel tr Y' Z v1 rel1 tr1 X' Z' w : renamed rr g X X' -> renamed rl g Z Z' -> rl v1 = Some w \/ (rl v1 = None /\ w = 0) ->
      prescribed RBC (Sl "\" Y' Z v1 rel1 tr1) (Sl "\" X Y v rel tr) Y' Y (Sl "\" X' Z' w None 0)
  | pr_bx X Y v rel tr Y' Z v1 rel1 tr1 X' Z' w : renamed rr g X X' -> renamed rl g Z Z' -> rl v1 = Some w \/ (rl v1 = None /\ w = 0) ->
      prescribed RBX (Sl "/" Y' Z v1 rel1 tr1) (Sl "\" X Y v rel tr) Y' Y (Sl "/" X' Z' w None 0)
  | pr_gfc2 X Y v rel tr Y' Z v1 rel1 tr1 W v2 rel2 tr2 X' Z' W' w w1 : renamed rl g X X' -> renamed rr g Z Z' -> renamed rr g W W' ->
      rr v1 = Some w1 -> rl v = Some w \/ (rl v = None /\ w = 0) ->
      prescribed RGFC (Sl "/" X Y v rel tr) (Sl "/" (Sl "/" Y' Z v1 rel1 tr1) W v2 rel2 tr2) Y Y' (Sl "/" (Sl "/" X' Z' w1 rel1 0) W' w rel2 0)
  | pr_gbx2 X Y v rel tr Y' Z v1 rel1 tr1 W v2 rel2 tr2 X' Z' W' w w1 : renamed rr g X X' -> renamed rl g Z Z' -> renamed rl g W W' ->
      rl v1 = Some w1 -> rl v2 = Some w \/ (rl v2 = None /\ w = 0) ->
      prescribed RGBX (Sl "/" (Sl "/" Y' Z v1 rel1 tr1) W v2 rel2 tr2) (Sl "\" X Y v rel tr) Y' Y (Sl "/" (Sl "/" X' Z' w1 rel1 0) W' w rel2 0)
  | pr_gfc3 X Y v rel tr Y' Z v1 rel1 tr1 W v2 rel2 tr2 V v3 rel3 tr3 X' Z' W' V' w w1 w2 : renamed rl g X X' -> renamed rr g Z Z' -> renamed rr g W W' -> renamed rr g V V' ->
      rr v1 = Some w1 -> rr v2 = Some w2 -> rl v = Some w \/ (rl v = None /\ w = 0) ->
      prescribed RGFC (Sl "/" X Y v rel tr) (Sl "/" (Sl "/" (Sl "/" Y' Z v1 rel1 tr1) W v2 rel2 tr2) V v3 rel3 tr3) Y Y'
        (Sl "/" (Sl "/" (Sl "/" X' Z' w1 rel1 0) W' w2 rel2 0) V' w rel3 0)
  | pr_gbx3 X Y v rel tr Y' Z v1 rel1 tr1 W v2 rel2 tr2 V v3 rel3 tr3 X' Z' W' V' w w1 w2 : renamed rr g X X' -> renamed rl g Z Z' -> renamed rl g W W' -> renamed rl g V V' ->
      rl v1 = Some w1 -> rl v2 = Some w2 -> rl v3 = Some w \/ (rl v3 = None /\ w = 0) ->
      prescribed RGBX (Sl "/" (Sl "/" (Sl "/" Y' Z v1 rel1 tr1) W v2 rel2 tr2) V v3 rel3 tr3) (Sl "\" X Y v rel tr) Y' Y
        (Sl "/" (Sl "/" (Sl "/" X' Z' w1 rel1 0) W' w2 rel2 0) V' w rel3 0).
End Prescribed.
(** no two variables get one number *)
Definition one_to_one (rho : nat -> option nat) : Prop := forall a b n, rho a = Some n -> rho b = Some n -> a = b.
(** the word or words a variable stands for are settled *)
Definition filled (t : ptree) (v : nat) : Prop := exists f, p_vars t v = Some (f, true).
(** The words a variable stands for; every word of the variables of the two trees is kept, under the new numbers, and all variables count as filled. *)
Definition fillers (t : ptree) (v : nat) : list string := match p_vars t v with Some (f, _) => f | None => [] end.
Definition heads_kept (rl rr : nat -> option nat) (l r t : ptree) : Prop :=
  (forall n f b, p_vars t n = Some (f, b) -> b = true) /\
  (forall a n, rl a = Some n -> (forall b, rr b <> Some n) -> fillers t n = fillers l a) /\
  (forall b n, rr b = Some n -> (forall a, rl a <> Some n) -> fillers t n = fillers r b) /\
  (forall a b n, rl a = Some n -> rr b = Some n -> fillers t n = (fillers l a ++ fillers r b)%list).
(** What a combination of two trees by application or composition must be: [g] is the last binding of X, or none;
    a variable of the left category becomes the same as one of the right category only if they face each other in the unified parts, and they are not both filled. *)
Definition combined (l r t : ptree) : Prop :=
  exists rl rr g yl yr,
    prescribed rl rr g (p_rule t) (p_cat l) (p_cat r) yl yr (p_cat t) /\ unifiable yl yr /\ g = last (bindings yl yr) "" /\
    one_to_one rl /\ one_to_one rr /\
    (forall a b n, rl a = Some n -> rr b = Some n -> facing yl yr a b /\ ~ (filled l a /\ filled r b)) /\ heads_kept rl rr l r t.
(** Categories all of whose parts carry a variable. *)
Fixpoint marked_up (c : cat) : Prop := match c with At _ _ v _ => v <> 0 | Sl _ r x v _ _ => v <> 0 /\ marked_up r /\ marked_up x end.
(** ** Every way two trees may be combined; the last two arguments are the grammar's type-changing rules for punctuation *)
Definition children (t : ptree) : option ptree * option ptree := let 'PT _ _ l r _ := t in (l, r).
Definition punctuation (c : cat) : Prop := exists a f v rel, c = At a f v rel /\ In a [AComma; ASemi; AColon; APeriod; ALqu; ARqu; ALrb; ARrb].
Inductive outcome (pl pr : cat -> cat -> list cat) (l r t : ptree) : Prop :=
| oc_rule : In (p_rule t) [RFA; RBA; RFC; RBC; RBX; RGFC; RGBX] -> combined l r t -> outcome pl pr l r t
| oc_conj : p_rule t = RCONJ -> In (c_atom (p_cat l)) [AConj; AComma; ASemi] -> p_cat t = Sl "\" (p_cat r) (p_cat r) 0 None 0 -> (forall v, fillers t v = fillers r v /\ ~ filled t v) -> outcome pl pr l r t
| oc_adj : p_rule t = RADJ -> c_atom (p_cat l) = AConj -> c_atom (p_cat r) = AN -> p_cat t = p_cat r -> p_vars t = p_vars r -> outcome pl pr l r t
| oc_lp : p_rule t = RLP -> punctuation (p_cat l) -> (p_cat t = p_cat r /\ p_vars t = p_vars r) \/ In (p_cat t) (pl (p_cat l) (p_cat r)) -> outcome pl pr l r t
| oc_rp : p_rule t = RRP -> punctuation (p_cat r) -> (p_cat t = p_cat l /\ p_vars t = p_vars l) \/ In (p_cat t) (pr (p_cat r) (p_cat l)) -> outcome pl pr l r t
| oc_gbc Y Z v1 rel1 tr1 d W v2 rel2 tr2 X Y' v rel tr : p_rule t = RGBC ->
    p_cat l = Sl d (Sl "\" Y Z v1 rel1 tr1) W v2 rel2 tr2 -> skeleton Y = KA AS -> p_cat r = Sl "\" X Y' v rel tr -> unifiable Y Y' -> p_cat t = p_cat l -> outcome pl pr l r t.
(** Where X stands for [g], the S features at corresponding places of the two categories are the same. *)
Inductive agree (g : string) : cat -> cat -> Prop :=
| ag_at a f f' v rel v' rel' : (a = AS -> inst g f = inst g f' \/ (free (inst g f) /\ free (inst g f'))) -> agree g (At a f v rel) (At a f' v' rel')
| ag_sl d r x r' x' v rel tr v' rel' tr' : agree g r r' -> agree g x x' -> agree g (Sl d r x v rel tr) (Sl d r' x' v' rel' tr').
Definition coordinated_or_raised (t : ptree) : Prop := In (p_rule t) [RCONJ; RBTR; RFTR].
(** Eisner's normal form constraint, and the restrictions on coordinated and type-raised constituents *)
Definition normal_form (eisner : bool) (l r t : ptree) : Prop :=
  (In (p_rule t) [RFA] -> ~ coordinated_or_raised r) /\ (In (p_rule t) [RBA] -> ~ coordinated_or_raised l) /\
  (In (p_rule t) [RBC; RGBC] -> p_rule l <> RCONJ) /\ (In (p_rule t) [RBC; RGBC; RBX; RGBX] -> p_rule r <> RCONJ) /\
  (In (p_rule t) [RCONJ] -> ~ coordinated_or_raised r) /\
  (eisner = true -> (In (p_rule t) [RFA; RFC; RGFC] -> ~ In (p_rule l) [RFC; RGFC]) /\ (In (p_rule t) [RBA; RBC; RGBC] -> ~ In (p_rule r) [RBC; RGBC])).
(** ** Concrete trees for the examples *)
Definition np := At ANP "" 1 None.
Definition vp (f : string) := Sl "\" (At AS f 2 None) np 2 (Some ("s", 1)) 0.
Definition leaf (c : cat) (w : string) : ptree := PT RL c None None (upd (fun _ => None) (c_var c) ([w], true)).
Definition yes (_ _ : cat) := true.
Definition none (_ _ : cat) : list cat := [].
Definition same_order (l : list nat) := l.
Definition gbc_l := leaf (Sl "\" (Sl "\" (At AS "dcl" 1 None) (At AS "dcl" 2 None) 1 None 0) (At ANP "" 3 None) 1 None 0) "left".
Definition gbc_r := leaf (Sl "\" (At ANP "" 1 None) (At AS "dcl" 2 None) 1 None 0) "right".
Definition two (f g : string) (a b c : nat) := Sl "\" (At AS f a None) (At AS g b None) c None 0.
Definition fa_l := leaf (Sl "/" (two "X" "X" 1 2 3) (two "X" "X" 1 2 4) 5 None 0) "left".
Definition fa_r := leaf (two "dcl" "b" 1 2 3) "right".
Definition fa_r2 := leaf (two "dcl" "X" 1 2 3) "right".
Definition atc (k : atomk) (v : nat) := At k "" v None.
Definition sl (d : ascii) (x y : cat) := Sl d x y 1 None 0.
Definition lv (c : cat) := leaf c "w".
Definition svp := Sl "\" (atc AS 2) (atc ANP 3) 2 None 0.
Definition C65_pairs : list (ptree * ptree) :=
  [(lv (sl "/" (atc ANP 1) (atc AN 2)), lv (atc AN 1)); (lv (atc ANP 1), lv (sl "\" (atc AS 1) (atc ANP 2)));
   (lv (sl "/" (atc AS 1) (atc AN 2)), lv (sl "/" (atc AN 1) (atc ANP 2))); (lv (sl "\" (atc AN 1) (atc ANP 2)), lv (sl "\" (atc AS 1) (atc AN 2)));
   (lv (sl "/" (sl "\" (atc AS 1) (atc ANP 2)) (atc ANP 3)), lv (sl "\" (sl "\" (atc AS 1) (atc ANP 3)) svp));
   (lv (sl "/" (atc APP 1) svp), lv (sl "/" (sl "/" (sl "\" (atc AS 1) (atc ANP 2)) (atc ANP 3)) (atc APP 4)));
   (lv (sl "/" (atc APP 1) svp), lv (sl "/" (sl "/" (sl "/" (sl "\" (atc AS 1) (atc ANP 2)) (atc ANP 3)) (atc APP 4)) (atc AN 5)));
   (lv (sl "/" (sl "/" (sl "\" (atc AS 1) (atc ANP 2)) (atc ANP 3)) (atc APP 4)), lv (sl "\" (atc APP 1) svp));
   (lv (sl "/" (sl "/" (sl "/" (sl "\" (atc AS 1) (atc ANP 2)) (atc ANP 3)) (atc APP 4)) (atc AN 5)), lv (sl "\" (atc APP 1) svp));
   (lv (atc AConj 1), lv (atc AN 1)); (lv (atc AComma 1), lv (atc AN 1)); (lv (atc AN 1), lv (atc APeriod 1))].
