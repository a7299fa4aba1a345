(** Normalising before applying a functor (lemmas only). *)
From Verif Require Import PyBase PyFacts TyModel TyFacts DiagModel DiagSpec DiagFacts BoxEq FunctorModel FunctorSpec FunctorFacts Cat SnakeModel SnakeFacts SnakeSpec SnakeYank SnakeMain FunctorDenSpec FunctorDen.
From Coq Require Import Permutation.
Set Implicit Arguments. Unset Strict Implicit.

Lemma interchange_boxes left d i j d' : wf d -> interchange d i j left = Ok d' -> Permutation (boxes d) (boxes d').
Proof.
  intros W E. destruct (interchange_position W E) as (pre & mid & b & post & _ & _ & [(_ & _ & _ & -> & ->)|(_ & _ & _ & -> & ->)]).
  - apply Permutation_app_head. rewrite !app_assoc. apply Permutation_app_tail. apply Permutation_app_comm.
  - apply Permutation_app_head. rewrite !app_assoc. apply Permutation_app_tail. apply Permutation_app_comm.
Qed.
Lemma nf_pass left is_ : forall d c m d' c' m', wf d -> foldM (nf_step left) is_ (d, c, m) = Ok (d', c', m') ->
  wf d' /\ Permutation (boxes d) (boxes d').
Proof.
  induction is_ as [|i is_ IH]; intros d c m d' c' m' W E; cbn [foldM] in E.
  - injection E as <- _ _. auto.
  - cbn [nf_step] in E. destruct (movable left (layers d) i); [|apply (IH _ _ _ _ _ _ W E)].
    destruct (interchange d (Z.of_nat i) (Z.of_nat (i + 1)) left) as [d1|] eqn:E1; [|discriminate]. cbn [bind] in E.
    destruct (existsb (diagram_eqb d1) c); [discriminate|]. cbn [bind] in E.
    destruct (IH _ _ _ _ _ _ (deqv_wf (interchange_sound W E1)) E) as [W' P]. split; [exact W'|].
    transitivity (boxes d1); [exact (interchange_boxes W E1)|exact P].
Qed.
Lemma normalize_boxes f : forall left d c d', wf d -> normalize f left d c = Some (Ok d') -> Permutation (boxes d) (boxes d').
Proof.
  induction f as [|f IH]; intros left d c d' W E; cbn [normalize] in E; [discriminate|].
  destruct (foldM (nf_step left) _ (d, c, false)) as [[[d1 c1] m]|] eqn:E1; [|discriminate].
  destruct (nf_pass W E1) as [W1 P]. destruct m; [|injection E as <-; exact P].
  transitivity (boxes d1); [exact P|apply (IH _ _ _ _ W1 E)].
Qed.
Lemma remove_snakes_boxes f d d' : wf d -> no_mixed (boxes d) -> remove_snakes f d = Some (Ok d') -> wf d' /\ incl (boxes d') (boxes d) /\ same_rigid d d'.
Proof.
  intros W N E. destruct (@remove_snakes_ok (S (List.length (layers d))) d W N (le_n _)) as (d1 & rm & E1 & Q & _ & P & _).
  assert (d1 = d') as ->.
  { pose proof (remove_snakes_fuel E (Nat.le_max_l f (S (List.length (layers d))))) as K1.
    pose proof (remove_snakes_fuel E1 (Nat.le_max_r f (S (List.length (layers d))))) as K2. congruence. }
  split; [exact (deqvr_wf Q)|]. split; [|intros C I R; exact (deqvr_den Q R)].
  intros b Hb. apply (Permutation_in _ (Permutation_sym P)). apply in_or_app. now right.
Qed.
Lemma normal_form_boxes f left d d' : wf d -> no_mixed (boxes d) -> normal_form f left d = Some (Ok d') -> wf d' /\ incl (boxes d') (boxes d) /\ same_rigid d d'.
Proof.
  intros W N E. assert (E0 := E). unfold normal_form in E. destruct (remove_snakes f d) as [[d1|]|] eqn:E1; try discriminate.
  destruct (remove_snakes_boxes W N E1) as (W1 & I1 & _). pose proof (normalize_boxes W1 E) as P.
  destruct (normal_form_ok left W N) as (F & r & EF & D).
  assert (K : normal_form (Nat.max f F) left d = Some (Ok d')).
  { unfold normal_form. rewrite (remove_snakes_fuel E1 (Nat.le_max_l f F)). exact (normalize_fuel E (Nat.le_max_l f F)). }
  rewrite (EF _ (Nat.le_max_r f F)) in K. injection K as ->. destruct D as [D|(d2 & D & Q & _)]; [discriminate|]. injection D as <-.
  split; [exact (deqvr_wf Q)|]. split; [|intros C I R; exact (deqvr_den Q R)].
  intros b Hb. apply I1. apply (Permutation_in _ (Permutation_sym P)). exact Hb.
Qed.
Lemma normal_form_deqvr f left d d' : wf d -> no_mixed (boxes d) -> normal_form f left d = Some (Ok d') -> deqvr d d'.
Proof.
  intros W N E. assert (E0 := E). unfold normal_form in E. destruct (remove_snakes f d) as [[d1|]|] eqn:E1; try discriminate.
  destruct (normal_form_ok left W N) as (F & r & EF & D).
  assert (K : normal_form (Nat.max f F) left d = Some (Ok d')).
  { unfold normal_form. rewrite (remove_snakes_fuel E1 (Nat.le_max_l f F)). exact (normalize_fuel E (Nat.le_max_l f F)). }
  rewrite (EF _ (Nat.le_max_r f F)) in K. injection K as ->. destruct D as [D|(d2 & D & Q & _)]; [discriminate|]. injection D as <-. exact Q.
Qed.
Lemma pregroup_normal_form_boxes f d d' : wf d -> no_mixed (boxes d) -> dom d = [] -> pregroup_normal_form f d = Some (Ok d') ->
  wf d' /\ incl (boxes d') (boxes d) /\ same_rigid d d'.
Proof.
  intros W N D E. unfold pregroup_normal_form in E.
  destruct (take_words (layers d) (id [])) as [words ok] eqn:T.
  pose proof W as [H B]. rewrite D in H.
  destruct (@take_words_spec (layers d) [] (cod d) (id []) words ok) as (p & q & L & Lw & Ww & Dw & Hq & Bq); auto using wf_id.
  cbn [id layers app] in Lw. pose proof Ww as [Hp Bp]. rewrite Lw, Dw in *.
  rewrite (@d_slice_from d p q (cod words)) in E; auto; [|now rewrite D].
  destruct (negb _ || _).
  { exact (normal_form_boxes W N E). }
  set (wires := Diag (cod words) (cod d) q) in *.
  assert (Wq : wf wires) by (split; auto).
  assert (Iw : incl (boxes words) (boxes d)) by (intros b; unfold boxes; rewrite L, Lw, map_app; intro; apply in_or_app; auto).
  assert (Iq : incl (boxes wires) (boxes d)) by (intros b; unfold boxes; rewrite L, map_app; intro; apply in_or_app; auto).
  destruct (normal_form f false words) as [[a|]|] eqn:Ea; try discriminate.
  destruct (normal_form f false wires) as [[b|]|] eqn:Eb; try discriminate.
  destruct (normal_form_boxes Ww (no_mixed_incl Iw N) Ea) as (_ & Ia & _). destruct (normal_form_boxes Wq (no_mixed_incl Iq N) Eb) as (_ & Ib & _).
  pose proof (normal_form_deqvr Ww (no_mixed_incl Iw N) Ea) as Qa. pose proof (normal_form_deqvr Wq (no_mixed_incl Iq N) Eb) as Qb.
  destruct (@deqvr_then words wires a b eq_refl Qa Qb) as (c & Ec & Qc). assert (c = d') as -> by congruence.
  assert (Qd : deqvr d d').
  { cbn [wires dom cod layers] in Qc. rewrite Dw, Lw, <- L in Qc. rewrite <- D in Qc at 1. destruct d; exact Qc. }
  split; [exact (deqvr_wf Qd)|]. split; [|intros C I R; exact (deqvr_den Qd R)].
  apply d_then_inv in Ec. destruct Ec as [_ ->]. unfold boxes at 1. cbn [layers]. rewrite map_app.
  intros x Hx. apply in_app_or in Hx. destruct Hx as [Hx|Hx]; [apply Iw, Ia|apply Iq, Ib]; exact Hx.
Qed.

Section After.
  Variable custom_ob : string -> res ty.
  Variable ob : string -> ty.
  Hypothesis Hob : forall n, custom_ob n = Ok (ob n).
  Variable ca : box -> res diagram.
  Lemma after d d' e : wf d -> respected ob ca d -> F_diag custom_ob ca d = Ok e -> wf d' /\ incl (boxes d') (boxes d) /\ same_rigid d d' ->
    exists e', F_diag custom_ob ca d' = Ok e' /\ same_rigid e e'.
  Proof.
    intros W H E (W' & I & Q). destruct (sub_image Hob W W' H I E) as (H' & e' & E'). exists e'. split; [exact E'|].
    apply (equal_meaning Hob W W' H H' E E'). exact Q.
  Qed.
  Lemma after_interchange d d' e i j left : wf d -> respected ob ca d -> F_diag custom_ob ca d = Ok e -> interchange d i j left = Ok d' ->
    exists e', F_diag custom_ob ca d' = Ok e' /\ same e e'.
  Proof.
    intros W H E X. pose proof (interchange_sound W X) as Q. pose proof (deqv_wf Q) as W'.
    assert (I : incl (boxes d') (boxes d)) by (intros b Hb; apply (Permutation_in _ (Permutation_sym (interchange_boxes W X)) Hb)).
    destruct (sub_image Hob W W' H I E) as (H' & e' & E'). exists e'. split; [exact E'|].
    apply (equal_meaning Hob W W' H H' E E'). intros C J. exact (deqv_den J Q).
  Qed.
End After.
