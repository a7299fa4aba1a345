(** The denotation is a monoidal functor on well-typed diagrams (lemmas only). *)
From Verif Require Import PyBase PyFacts TyModel TyFacts DiagModel DiagSpec DiagFacts Cat.
Set Implicit Arguments. Unset Strict Implicit.

Section Facts.
Variable C : smc.
Variable I : interp C.
Notation ob := (obt C (obi I)).
Notation "f == g" := (heq C f g) (at level 70).
Notation "f ;; g" := (cmp C f g) (at level 50, left associativity).
Notation "f ⊗ g" := (tns C f g) (at level 40, left associativity).
Notation "1_ t" := (idm C (obt C (obi I) t)) (at level 0, t at level 0).

Lemma obt_app s t : ob (s ++ t) = ot C (ob s) (ob t).
Proof.
  induction s as [|a s IH]; cbn; [now rewrite ot_unit_l|]. now rewrite IH, ot_assoc.
Qed.
Lemma obt_single a : ob [a] = obi I a.
Proof. cbn. apply ot_unit_r. Qed.
Lemma obt_nil : ob [] = unit_ob C.
Proof. reflexivity. Qed.

Lemma src_layer x : box_ok (l_box x) -> src C (den_layer I x) = ob (l_dom x).
Proof.
  destruct x as [[l b] r]; cbn [l_box den_layer l_dom]; intro H.
  now rewrite !src_tns, !src_idm, ari_src, !obt_app by auto.
Qed.
Lemma tgt_layer x : box_ok (l_box x) -> tgt C (den_layer I x) = ob (l_cod x).
Proof.
  destruct x as [[l b] r]; cbn [l_box den_layer l_cod]; intro H.
  now rewrite !tgt_tns, !tgt_idm, ari_tgt, !obt_app by auto.
Qed.

Lemma den_layers_types ls : forall d c, chain d ls c -> All (fun x => box_ok (l_box x)) ls ->
  src C (den_layers I c ls) = ob d /\ tgt C (den_layers I c ls) = ob c.
Proof.
  induction ls as [|x ls IH]; cbn; intros d c H B.
  - subst. now rewrite src_idm, tgt_idm.
  - destruct H as [-> H], B as [Bx B]. destruct (IH _ _ H B) as [S T].
    rewrite src_cmp, tgt_cmp by now rewrite tgt_layer. now rewrite src_layer.
Qed.
Lemma den_src d : wf d -> src C (den I d) = ob (dom d).
Proof. intros [H B]. apply (den_layers_types H B). Qed.
Lemma den_tgt d : wf d -> tgt C (den I d) = ob (cod d).
Proof. intros [H B]. apply (den_layers_types H B). Qed.

Lemma den_layers_app ls ks d m c : chain d ls m -> chain m ks c ->
  All (fun x => box_ok (l_box x)) ls -> All (fun x => box_ok (l_box x)) ks ->
  den_layers I c (ls ++ ks) == den_layers I m ls ;; den_layers I c ks.
Proof.
  revert d. induction ls as [|x ls IH]; intros d H K B B'; cbn [app den_layers].
  - symmetry. apply cmp_idm_l. destruct (den_layers_types K B') as [-> _]. reflexivity.
  - destruct H as [-> H], B as [Bx B]. rewrite (IH _ H K B B').
    symmetry. apply cmp_assoc.
    + rewrite tgt_layer by auto. destruct (den_layers_types H B) as [-> _]. reflexivity.
    + destruct (den_layers_types H B) as [_ ->]. destruct (den_layers_types K B') as [-> _]. reflexivity.
Qed.

Lemma den_id t : den I (id t) == 1_ t.
Proof. reflexivity. Qed.
Lemma den_box b : box_ok b -> den I (to_diag b) == ari I b.
Proof.
  intro H. unfold den; cbn [to_diag layers cod den_layers den_layer].
  rewrite cmp_idm_r.
  - change (ob []) with (unit_ob C). now rewrite tns_unit_l, tns_unit_r.
  - rewrite !tgt_tns, !tgt_idm, ari_tgt by auto. cbn. now rewrite ot_unit_l, ot_unit_r.
Qed.

Lemma den_then a b c : wf a -> wf b -> d_then a b = Ok c -> den I c == den I a ;; den I b.
Proof.
  intros [Ha Ba] [Hb Bb] H. apply d_then_inv in H as [E ->]. unfold den; cbn [layers cod].
  rewrite <- E in Hb. eapply den_layers_app; eauto.
Qed.

(** whiskering *)
Lemma den_extend_layer l r x : box_ok (l_box x) ->
  den_layer I (l_extend l r x) == 1_ l ⊗ (den_layer I x ⊗ 1_ r).
Proof.
  destruct x as [[a b] c]. intros _. cbn [l_extend den_layer].
  rewrite !obt_app, <- !tns_idm, !tns_assoc. reflexivity.
Qed.

Lemma whisker_cmp l r f g : tgt C f = src C g ->
  (1_ l ⊗ (f ⊗ 1_ r)) ;; (1_ l ⊗ (g ⊗ 1_ r)) == 1_ l ⊗ ((f ;; g) ⊗ 1_ r).
Proof.
  intro E.
  rewrite interchange_law by (rewrite ?tgt_tns, ?src_tns, ?src_idm, ?tgt_idm, ?E; reflexivity).
  rewrite (interchange_law C f) by (rewrite ?src_idm, ?tgt_idm; auto).
  rewrite !cmp_idm_l by now rewrite src_idm. reflexivity.
Qed.

Lemma den_extend l r ls : forall d c, chain d ls c -> All (fun x => box_ok (l_box x)) ls ->
  den_layers I (l ++ c ++ r) (map (l_extend l r) ls) == 1_ l ⊗ (den_layers I c ls ⊗ 1_ r).
Proof.
  induction ls as [|x ls IH]; intros d c H B; cbn [map den_layers].
  - rewrite !obt_app, <- !tns_idm. reflexivity.
  - destruct H as [-> H], B as [Bx B]. rewrite (IH _ _ H B), den_extend_layer by auto.
    apply whisker_cmp. rewrite tgt_layer by auto.
    destruct (den_layers_types H B) as [-> _]. reflexivity.
Qed.

Lemma den_tensor a b : wf a -> wf b -> den I (tensor a b) == den I a ⊗ den I b.
Proof.
  intros Wa Wb. pose proof Wa as [Ha Ba]. pose proof Wb as [Hb Bb].
  unfold den. rewrite layers_tensor, cod_tensor.
  pose proof (@chain_extend [] (dom b) _ _ _ Ha) as Ca. pose proof (@chain_extend (cod a) [] _ _ _ Hb) as Cb.
  rewrite !app_nil_r in Cb. cbn [app] in Ca.
  rewrite (den_layers_app Ca Cb) by now apply (All_extend box_ok).
  pose proof (den_extend [] (dom b) Ha Ba) as Ea. pose proof (den_extend (cod a) [] Hb Bb) as Eb.
  cbn [app] in Ea. rewrite app_nil_r in Eb. rewrite Ea, Eb.
  change (ob []) with (unit_ob C). rewrite tns_unit_l, tns_unit_r.
  destruct (den_layers_types Ha Ba) as [Sa Ta]. destruct (den_layers_types Hb Bb) as [Sb Tb].
  rewrite interchange_law by (rewrite ?tgt_idm, ?src_idm; auto).
  rewrite cmp_idm_r, cmp_idm_l by auto. reflexivity.
Qed.

Lemma den_interchange f g h k x y l r :
  wf f -> wf g -> wf h -> wf k ->
  d_then f h = Ok x -> d_then g k = Ok y -> l = tensor x y -> d_then (tensor f g) (tensor h k) = Ok r ->
  den I l == den I r.
Proof.
  intros Wf Wg Wh Wk Hx Hy -> Hr.
  pose proof (wf_then Wf Wh Hx) as Wx. pose proof (wf_then Wg Wk Hy) as Wy.
  rewrite den_tensor by auto. rewrite (den_then Wf Wh Hx), (den_then Wg Wk Hy).
  rewrite (den_then (wf_tensor Wf Wg) (wf_tensor Wh Wk) Hr). rewrite !den_tensor by auto.
  symmetry. apply d_then_inv in Hx as [Ex _]. apply d_then_inv in Hy as [Ey _].
  apply interchange_law; rewrite den_src, den_tgt by auto; congruence.
Qed.

(** two adjacent layers acting on disjoint wires commute *)
Lemma commute_layers a b0 m b1 c : box_ok b0 -> box_ok b1 ->
  den_layer I (a, b0, m ++ b_dom b1 ++ c) ;; den_layer I (a ++ b_cod b0 ++ m, b1, c) ==
  den_layer I (a ++ b_dom b0 ++ m, b1, c) ;; den_layer I (a, b0, m ++ b_cod b1 ++ c).
Proof.
  intros B0 B1. cbn [den_layer].
  rewrite !obt_app, <- !tns_idm, !tns_assoc.
  rewrite !(interchange_law C (1_ a)) by (rewrite ?tgt_tns, ?src_tns, ?tgt_idm, ?src_idm, ?ari_src, ?ari_tgt by auto; reflexivity).
  apply tns_heq; [reflexivity|].
  rewrite !(interchange_law C (ari I b0)), !(interchange_law C (1_ (b_dom b0)))
    by (rewrite ?tgt_tns, ?src_tns, ?tgt_idm, ?src_idm, ?ari_src, ?ari_tgt by auto; reflexivity).
  apply tns_heq.
  - rewrite cmp_idm_r, cmp_idm_l by (rewrite ?ari_src, ?ari_tgt by auto; reflexivity). reflexivity.
  - rewrite !(interchange_law C (1_ m)) by (rewrite ?tgt_tns, ?src_tns, ?tgt_idm, ?src_idm, ?ari_src, ?ari_tgt by auto; reflexivity).
    apply tns_heq; [reflexivity|].
    rewrite !(interchange_law C) by (rewrite ?tgt_tns, ?src_tns, ?tgt_idm, ?src_idm, ?ari_src, ?ari_tgt by auto; reflexivity).
    apply tns_heq; [|reflexivity].
    rewrite cmp_idm_r, cmp_idm_l by (rewrite ?ari_src, ?ari_tgt by auto; reflexivity). reflexivity.
Qed.
End Facts.
