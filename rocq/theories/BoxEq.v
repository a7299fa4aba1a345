(** Decidable equality of boxes and diagrams: the structural equality of the dataclasses
    in grammar.py (453-460, 576-592, 702-718 and the special boxes). *)
From Verif Require Import PyBase TyModel TyFacts DiagModel DiagSpec DiagFacts.
Set Implicit Arguments. Unset Strict Implicit.

Section Leq.
  Variable A : Type.
  Variable eqb : A -> A -> bool.
  Fixpoint list_eqb (l k : list A) : bool :=
    match l, k with
    | [], [] => true
    | x :: l', y :: k' => eqb x y && list_eqb l' k'
    | _, _ => false
    end.
End Leq.

Definition layer_eqb_with (f : box -> box -> bool) (x y : layer) : bool :=
  let '(l, b, r) := x in let '(l', b', r') := y in ty_eqb l l' && f b b' && ty_eqb r r'.
Definition comp_eqb_with (f : box -> box -> bool) (x y : comp box) : bool :=
  match x, y with
  | CBox b, CBox b' => f b b'
  | CDiag d c ls, CDiag d' c' ls' => ty_eqb d d' && ty_eqb c c' && list_eqb (layer_eqb_with f) ls ls'
  | _, _ => false
  end.
Fixpoint box_eqb (a b : box) {struct a} : bool :=
  match a, b with
  | Box n d c z, Box n' d' c' z' => String.eqb n n' && ty_eqb d d' && ty_eqb c c' && (z =? z')%Z
  | Word n c z, Word n' c' z' => String.eqb n n' && ty_eqb c c' && (z =? z')%Z
  | Cap l r v, Cap l' r' v' | Cup l r v, Cup l' r' v' => atom_eqb l l' && atom_eqb r r' && Bool.eqb v v'
  | Swap l r, Swap l' r' => atom_eqb l l' && atom_eqb r r'
  | Spider t n m, Spider t' n' m' => atom_eqb t t' && (n =? n') && (m =? m')
  | Dagg b, Dagg b' => box_eqb b b'
  | Frame n d c cs z, Frame n' d' c' cs' z' | DagFrame n d c cs z, DagFrame n' d' c' cs' z' =>
      String.eqb n n' && ty_eqb d d' && ty_eqb c c' && list_eqb (comp_eqb_with box_eqb) cs cs' && (z =? z')%Z
  | _, _ => false
  end.
Definition layer_eqb : layer -> layer -> bool := layer_eqb_with box_eqb.
Definition diagram_eqb (a b : diagram) : bool :=
  ty_eqb (dom a) (dom b) && ty_eqb (cod a) (cod b) && list_eqb layer_eqb (layers a) (layers b).

Lemma list_eqb_iff A (eqb : A -> A -> bool) l :
  All (fun x => forall y, eqb x y = true <-> x = y) l ->
  forall k, list_eqb eqb l k = true <-> l = k.
Proof.
  induction l as [|x l IH]; intros H [|y k]; cbn; try (split; congruence).
  destruct H as [Hx H]. rewrite andb_true_iff, Hx, IH by auto. split; [intros [-> ->]|intros [= -> ->]]; auto.
Qed.
Lemma ty_eqb_iff s t : ty_eqb s t = true <-> s = t.
Proof. destruct (ty_eqb_spec s t); split; congruence. Qed.
Lemma atom_eqb_iff s t : atom_eqb s t = true <-> s = t.
Proof. destruct (atom_eqb_spec s t); split; congruence. Qed.
Lemma layer_eqb_with_iff f ls :
  All (fun x => forall b, f (l_box x) b = true <-> l_box x = b) ls ->
  All (fun x => forall y, layer_eqb_with f x y = true <-> x = y) ls.
Proof.
  induction ls as [|x ls IH]; cbn; auto. intros [Hx H]; split; auto.
  destruct x as [[l b] r]; intros [[l' b'] r']; cbn in *.
  rewrite !andb_true_iff, !ty_eqb_iff, Hx. split; [intros [[-> ->] ->]|intros [= -> -> ->]]; auto.
Qed.
Lemma box_eqb_iff a : forall b, box_eqb a b = true <-> a = b.
Proof.
  assert (HC : forall cs, All (AllC (fun a => forall b, box_eqb a b = true <-> a = b)) cs ->
     forall ks, list_eqb (comp_eqb_with box_eqb) cs ks = true <-> cs = ks).
  { intros cs H. apply list_eqb_iff. induction cs as [|c cs IH]; cbn in *; auto.
    destruct H as [Hc H]; split; auto. destruct c as [b|d c ls]; intros [b'|d' c' ls']; cbn in *; try (split; congruence).
    - rewrite Hc. split; congruence.
    - rewrite !andb_true_iff, !ty_eqb_iff, list_eqb_iff by (now apply layer_eqb_with_iff).
      split; [intros [[-> ->] ->]|intros [= -> -> ->]]; auto. }
  induction a using box_ind'; intros b'; destruct b'; cbn; try (split; congruence);
    rewrite ?andb_true_iff, ?String.eqb_eq, ?ty_eqb_iff, ?atom_eqb_iff, ?Z.eqb_eq, ?Nat.eqb_eq, ?eqb_true_iff, ?IHa, ?HC by auto;
    split; intros; repeat match goal with H : _ /\ _ |- _ => destruct H end; subst; auto;
    match goal with H : _ = _ |- _ => injection H; intros; subst; auto 10 end.
Qed.
Lemma layer_eqb_iff x y : layer_eqb x y = true <-> x = y.
Proof.
  pose proof (@layer_eqb_with_iff box_eqb [x]) as H. cbn in H. apply H. split; auto. apply box_eqb_iff.
Qed.
Lemma diagram_eqb_iff a b : diagram_eqb a b = true <-> a = b.
Proof.
  destruct a, b; unfold diagram_eqb; cbn.
  rewrite !andb_true_iff, !ty_eqb_iff, list_eqb_iff.
  - split; [intros [[-> ->] ->]|intros [= -> -> ->]]; auto.
  - induction layers as [|x l IH]; cbn; auto. split; auto. apply layer_eqb_iff.
Qed.
