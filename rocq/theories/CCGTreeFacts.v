(** Proofs about CCGTree: resolution and diagrams. *)
From Verif Require Import PyBase PyFacts TyModel TyFacts DiagModel DiagSpec DiagFacts DiagCups DiagKinds
  CCGModel CCGSpec CCGTypeFacts CCGRuleFacts.
Set Implicit Arguments.
Unset Strict Implicit.

Section Ind.
Variable P : ctree -> Prop.
Hypothesis H : forall s r t cs, Forall P cs -> P (CT s r t cs).
Fixpoint ctree_ind' (x : ctree) : P x :=
  let 'CT s r t cs := x in
  H s r t ((fix go l : Forall P l := match l with [] => Forall_nil P | c :: l' => Forall_cons c (ctree_ind' c) (go l') end) cs).
End Ind.

Lemma rule_eqb_iff a b : rule_eqb a b = true <-> a = b.
Proof. destruct a, b; cbn; split; congruence. Qed.

(** observable equality of trees *)
Inductive teq : ctree -> ctree -> Prop :=
| TEq a b : t_text a = t_text b -> t_rule a = t_rule b -> t_type a = t_type b ->
    Forall2 teq (t_children a) (t_children b) -> teq a b.
Lemma ctree_eqb_iff a : forall b, ctree_eqb a b = true <-> teq a b.
Proof.
  induction a as [s r t cs IH] using ctree_ind'. intros b.
  assert (G : forall ys, all2 ctree_eqb cs ys = true <-> Forall2 teq cs ys).
  { induction IH as [|c cs Hc _ IHcs]; intros [|y ys]; cbn; split; try congruence; try (constructor; fail); try (intro F; inversion F; fail).
    - intro E. apply andb_true_iff in E as (E1 & E2). constructor; [now apply Hc|now apply IHcs].
    - intro F. inversion F; subst. apply andb_true_iff. split; [now apply Hc|now apply IHcs]. }
  cbn [ctree_eqb]. rewrite !andb_true_iff, String.eqb_eq, rule_eqb_iff, cty_eqb_iff, G. split.
  - intros (((? & ?) & ?) & ?). now constructor.
  - intro E. inversion E; subst. auto.
Qed.

Lemma all2_iff cs ys : all2 ctree_eqb cs ys = true <-> Forall2 teq cs ys.
Proof.
  revert ys. induction cs as [|c cs IH]; intros [|y ys]; cbn; split; try congruence; try (constructor; fail); try (intro F; inversion F; fail).
  - intro E. apply andb_true_iff in E as (E1 & E2). constructor; [now apply ctree_eqb_iff|now apply IH].
  - intro F. inversion F; subst. apply andb_true_iff. split; [now apply ctree_eqb_iff|now apply IH].
Qed.

(** trees on which [to_diag_pair] is called *)
Inductive ready : ctree -> Prop :=
| R_leaf s t : proper t -> t <> PUNCTUATION -> ready (CT s LEXICAL t [])
| R_rule s ru t cs : instance ru (map t_type cs) t -> proper t -> Forall ready cs -> ready (CT s ru t cs)
| R_LP s p x : punct_leaf p -> ready x -> ready (CT s LP (t_type x) [p; x])
| R_RP s p x : punct_leaf p -> ready x -> ready (CT s RP (t_type x) [x; p]).

Lemma punct_leaf_teq a b : teq a b -> punct_leaf a -> punct_leaf b.
Proof.
  intros E (s & ->). inversion E as [? ? _ E1 E2 F]; subst. destruct b as [s' r t cs]. cbn in *. subst. inversion F; subst.
  exists s'. reflexivity.
Qed.
Lemma teq_types a b : Forall2 teq a b -> map t_type a = map t_type b.
Proof. intro F. induction F as [|x y l l' E F IH]; cbn; auto. inversion E; subst. congruence. Qed.

Lemma instance_not ru dm cd : instance ru dm cd -> ru <> LEXICAL /\ ru <> LP /\ ru <> RP /\ ru <> UNARY /\ ru <> CONJ /\ ru <> UNKNOWN.
Proof. destruct 1; repeat split; discriminate. Qed.
Lemma instance_schematic ru dm cd : instance ru dm cd -> schematic ru = true.
Proof. now destruct 1. Qed.
Lemma instance_arity ru dm cd : instance ru dm cd -> List.length dm = required_children ru.
Proof. now destruct 1. Qed.

(** words of a node whose rule is not leaf/punctuation *)
Lemma sentence_node s ru t cs : ru <> LEXICAL -> ru <> LP -> ru <> RP ->
  sentence (CT s ru t cs) = List.concat (map sentence cs).
Proof. destruct ru; intros; congruence || reflexivity. Qed.

Lemma ready_teq a : forall b, teq a b -> ready a -> ready b /\ sentence b = sentence a.
Proof.
  induction a as [s r t cs IH] using ctree_ind'. intros b E R. pose proof E as E0. inversion E as [? ? Et Er Ety F]; subst.
  destruct b as [s' r' t' cs']. cbn [t_rule t_type t_children] in *. subst r' t'.
  assert (Gen : Forall ready cs -> Forall ready cs' /\ map sentence cs' = map sentence cs).
  { clear - IH F. revert cs' F. induction IH as [|c cs Hc _ IHcs]; intros cs' F Rs; inversion F; subst; [split; auto|].
    inversion Rs; subst. destruct (Hc _ H1) as (R1 & S1); auto. destruct (IHcs _ H3) as (R2 & S2); auto.
    split; [now constructor|]. cbn. congruence. }
  inversion R; subst.
  - inversion F; subst. split; [now constructor|]. cbn [sentence]. now rewrite Et.
  - destruct (Gen H5) as (R' & S'). split.
    + constructor; auto. now rewrite <- (teq_types F).
    + destruct (instance_not H2) as (? & ? & ? & _). rewrite !sentence_node by auto. congruence.
  - inversion F as [|? p' ? l' Ep F1]; subst. inversion F1 as [|? x' ? l'' Ex F2]; subst. inversion F2; subst.
    inversion IH as [|? ? _ IH1]; subst. inversion IH1 as [|? ? IHx _]; subst.
    destruct (IHx _ Ex) as (R' & S'); auto. inversion Ex as [? ? _ _ Tx _]; subst. rewrite Tx. split; [|exact S'].
    apply R_LP; auto. eapply punct_leaf_teq; eauto.
  - inversion F as [|? p' ? l' Ep F1]; subst. inversion F1 as [|? x' ? l'' Ex F2]; subst. inversion F2; subst.
    inversion IH as [|? ? IHx _]; subst.
    destruct (IHx _ Ep) as (R' & S'); auto. inversion Ep as [? ? _ _ Tx _]; subst. rewrite Tx. split; [|exact S'].
    apply R_RP; auto. eapply punct_leaf_teq; eauto.
Qed.

Lemma zipR_ok A B C (f : A -> B -> res C) l dm ys :
  Forall2 (fun p y => f (fst p) (snd p) = Ok y) (combine l dm) ys -> List.length l = List.length dm ->
  zipR f l dm = Ok ys.
Proof.
  revert dm ys. induction l as [|a l IH]; intros [|b dm] ys F L; cbn in L; try discriminate; cbn [combine zipR] in *.
  - inversion F. reflexivity.
  - inversion F as [|p c ps cs E F']; subst. cbn in E. rewrite E. cbn [bind]. rewrite (IH dm cs) by (auto; lia). reflexivity.
Qed.
Lemma mapR_ok A B (f : A -> res B) l ys : Forall2 (fun x y => f x = Ok y) l ys -> mapR f l = Ok ys.
Proof. intro F. induction F as [|x y l ys E F IH]; cbn; auto. now rewrite E, IH. Qed.
Lemma mapR_inv A B (f : A -> res B) l : forall ys, mapR f l = Ok ys -> Forall2 (fun x y => f x = Ok y) l ys.
Proof.
  induction l as [|x l IH]; intros ys E; cbn in E; [injection E as <-; constructor|].
  destruct (f x) eqn:F; cbn in E; [|discriminate]. destruct (mapR f l) eqn:G; cbn in E; [|discriminate].
  injection E as <-. constructor; auto.
Qed.

Lemma deriv_proper x : deriv x -> proper (t_type x).
Proof.
  induction x as [s r t cs IH] using ctree_ind'. intro D. inversion D; subst; cbn [t_type]; auto.
  - inversion IH as [|? ? _ IH1]; subst. inversion IH1; subst. auto.
  - inversion IH; subst. auto.
  - inversion IH; subst. auto.
Qed.

(** what the building step of [resolved] returns *)
Lemma build_ready s ru cs ys t : ru <> LEXICAL ->
  ready (CT None ru t ys) -> List.length ys = required_children ru ->
  exists y, (if all2 ctree_eqb ys cs && cty_eqb t t then Ok (CT s ru t cs) else mk_tree None ru t ys) = Ok y /\
    ready y /\ t_type y = t /\ sentence y = sentence (CT None ru t ys) /\ (y = CT s ru t cs \/ y = CT None ru t ys).
Proof.
  intros NL R L. rewrite cty_eqb_refl, andb_true_r. destruct (all2 ctree_eqb ys cs) eqn:A.
  - eexists. split; [reflexivity|]. apply all2_iff in A.
    assert (T : teq (CT None ru t ys) (CT None ru t cs)).
    { constructor; auto. cbn [t_text]. f_equal. clear - A. induction A as [|a b l l' E A IH]; cbn; auto. inversion E; subst. congruence. }
    destruct (ready_teq T R) as (R' & S'). split; [|split; [auto|split; [|now left]]].
    + inversion R'; subst; [congruence|now apply R_rule|now apply R_LP|now apply R_RP].
    + rewrite <- S'. destruct ru; reflexivity || congruence.
  - unfold mk_tree. rewrite L, Nat.eqb_refl. cbn [negb]. rewrite andb_false_r. cbn [truthy andb].
    eexists. split; [reflexivity|]. auto.
Qed.

(** what resolution keeps besides types and words *)
Definition keeps (x y : ctree) : Prop := (gx_leaf x -> gx_leaf y) /\ (t_rule x = LEXICAL -> t_rule y = LEXICAL).
Lemma gx_node s s' ru t t' cs ys : Forall2 keeps cs ys -> gx_leaf (CT s ru t cs) -> gx_leaf (CT s' ru t' ys).
Proof.
  intros F (H1 & H2). split.
  - destruct F as [|[sa ra ta ca] [sb rb tb cb] l l' (_ & K) F]; [destruct ru; auto|].
    destruct ru; auto; cbn [t_rule] in K; auto.
    destruct F as [|[sa' ra' ta' ca'] [sb' rb' tb' cb'] l l' (_ & K') F]; auto.
    destruct F; auto.
  - clear H1. induction F as [|c y l l' (K & _) F IH]; cbn in *; auto. destruct H2. split; auto.
Qed.

Lemma ftr_shape c : deriv c -> t_rule c = FTR -> exists T x, t_type c = T // (T \\ x).
Proof.
  intros D E. destruct D; cbn in E; try discriminate. subst ru. cbn [t_type].
  match goal with I : instance FTR _ _ |- _ => inversion I; subst end. eauto.
Qed.

Lemma resolved_schematic s ru t cs : schematic ru = true ->
  resolve ru (map t_type cs) t = Ok (map t_type cs) ->
  (ru = FC -> exists c0 c1, cs = [c0; c1] /\ (t_rule c0 = FTR ->
     exists X Y0 Z0, t = X // Z0 /\ t_type c0 = X // (X \\ Y0) /\ t_type c1 = (X \\ Y0) // Z0)) ->
  resolved (CT s ru t cs) t =
  (do cs' <- zipR resolved cs (map t_type cs);
   if all2 ctree_eqb cs' cs && cty_eqb t t then Ok (CT s ru t cs) else mk_tree None ru t cs').
Proof.
  intros Sc Res F. destruct ru; try discriminate; cbn [resolved]; try (rewrite Res; reflexivity).
  destruct (F eq_refl) as (c0 & c1 & -> & G). clear F.
  destruct (rule_eqb (t_rule c0) FTR) eqn:Q; [|rewrite Res; reflexivity].
  apply rule_eqb_iff in Q. destruct (G Q) as (X & Y0 & Z0 & -> & T0 & T1). clear G.
  rewrite T0. cbn [c_left c_right bind]. cbn [map] in Res |- *. rewrite T0, T1 in *.
  unfold c_rshift, c_under, c_lshift, c_over. rewrite Res. reflexivity.
Qed.

Lemma resolved_deriv x : deriv x ->
  exists y, resolved x (t_type x) = Ok y /\ ready y /\ t_type y = t_type x /\ sentence y = sentence x /\ keeps x y.
Proof.
  induction x as [s r t cs IH] using ctree_ind'. intro D. cbn [t_type].
  (* all children resolved against their own types *)
  assert (Kids : Forall deriv cs -> exists ys, zipR resolved cs (map t_type cs) = Ok ys /\
     Forall ready ys /\ map t_type ys = map t_type cs /\ map sentence ys = map sentence cs /\ Forall2 keeps cs ys).
  { intro Ds. clear D. induction IH as [|c cs Hc _ IHcs]; [exists []; cbn; auto using Forall2_nil|].
    inversion Ds; subst. destruct (Hc H1) as (y & E & Ry & Ty & Sy & Ky). destruct (IHcs H2) as (ys & Es & Rs & Ts & Ss & Ks).
    exists (y :: ys). cbn [map zipR]. rewrite E. cbn [bind]. rewrite Es. cbn. rewrite Ty, Sy, Ts, Ss. split; auto. }
  inversion D; subst.
  - (* leaf *) cbn [resolved]. rewrite cty_eqb_refl. eexists. split; [reflexivity|]. split; [now constructor|]. repeat split; auto.
  - (* rule instance *)
    destruct (Kids H5) as (ys & E & Rs & Ts & Ss & Ks).
    assert (NL : r <> LEXICAL) by apply (instance_not H2).
    assert (R : ready (CT None r t ys)) by (constructor; auto; now rewrite Ts).
    assert (L : List.length ys = required_children r).
    { rewrite <- (instance_arity H2). rewrite <- (map_length t_type ys), Ts. reflexivity. }
    destruct (build_ready s cs NL R L) as (y & Ey & Ry & Ty & Sy & Ky).
    exists y. split; [|split; [auto|split; [auto|split]]].
    + pose proof (resolve_same H2) as Res.
      assert (FCcase : r = FC -> forall c0 c1, cs = [c0; c1] -> t_rule c0 = FTR ->
        exists X Y0 Z0, t = X // Z0 /\ t_type c0 = X // (X \\ Y0) /\ t_type c1 = (X \\ Y0) // Z0).
      { intros -> c0 c1 -> Hr. cbn [map] in H2. inversion H2; subst.
        inversion H5 as [|? ? Dc _]; subst. destruct (ftr_shape Dc Hr) as (T & x & Ec).
        match goal with H : _ = t_type c0 |- _ => rewrite Ec in H; injection H as -> -> end.
        exists T, x, Z. split; auto. }
      assert (FC' : r = FC -> exists c0 c1, cs = [c0; c1] /\ (t_rule c0 = FTR ->
                exists X Y0 Z0, t = X // Z0 /\ t_type c0 = X // (X \\ Y0) /\ t_type c1 = (X \\ Y0) // Z0)).
      { intros ->. apply instance_arity in H2. rewrite map_length in H2.
        destruct cs as [|c0 [|c1 [|? ?]]]; try discriminate. exists c0, c1. split; auto. }
      rewrite (resolved_schematic s (instance_schematic H2) Res FC'). rewrite E. cbn [bind]. exact Ey.
    + rewrite Sy. destruct (instance_not H2) as (? & ? & ? & _). rewrite !sentence_node by auto. congruence.
    + split; [|cbn; congruence]. intro G. destruct Ky as [->| ->]; auto. exact (gx_node None t Ks G).
  - (* LP *)
    inversion IH as [|? ? _ IH1]; subst. inversion IH1 as [|? ? IHx _]; subst.
    assert (Dx : deriv x) by assumption. destruct (IHx Dx) as (y & Ey & Ry & Ty & Sy & Ky). match goal with P : punct_leaf _ |- _ => destruct P as (sp & ->) end.
    assert (R : ready (CT None LP (t_type x) [CT sp LEXICAL PUNCTUATION []; y])).
    { rewrite <- Ty. apply R_LP; auto. now exists sp. }
    assert (NL : LP <> LEXICAL) by discriminate.
    destruct (build_ready s [CT sp LEXICAL PUNCTUATION []; x] NL R eq_refl) as (z & Ez & Rz & Tz & Sz & Kz).
    exists z. split; [|split; [auto|split; [auto|split]]].
    + cbn [resolved resolve map t_type unpack2 bind zipR]. rewrite cty_eqb_refl. cbn [bind]. rewrite Ey. cbn [bind]. exact Ez.
    + rewrite Sz. exact Sy.
    + split; [|cbn; congruence]. intro G. destruct Kz as [->| ->]; auto. cbn in G |- *. destruct Ky as (Ky & _). intuition.
  - (* RP *)
    inversion IH as [|? ? IHx _]; subst.
    assert (Dx : deriv x) by assumption. destruct (IHx Dx) as (y & Ey & Ry & Ty & Sy & Ky). match goal with P : punct_leaf _ |- _ => destruct P as (sp & ->) end.
    assert (R : ready (CT None RP (t_type x) [y; CT sp LEXICAL PUNCTUATION []])).
    { rewrite <- Ty. apply R_RP; auto. now exists sp. }
    assert (NL : RP <> LEXICAL) by discriminate.
    destruct (build_ready s [x; CT sp LEXICAL PUNCTUATION []] NL R eq_refl) as (z & Ez & Rz & Tz & Sz & Kz).
    exists z. split; [|split; [auto|split; [auto|split]]].
    + cbn [resolved resolve map t_type unpack2 bind zipR]. rewrite Ey. cbn [bind]. rewrite cty_eqb_refl. cbn [bind]. exact Ez.
    + rewrite Sz. exact Sy.
    + split; [|cbn; congruence]. intro G. destruct Kz as [->| ->]; auto. cbn in G |- *. destruct Ky as (Ky & _). intuition.
  - (* trivial unary *)
    inversion IH as [|? ? IHx _]; subst. assert (Dx : deriv x) by assumption. destruct (IHx Dx) as (y & Ey & Ry & Ty & Sy & Ky).
    exists y. cbn [resolved]. replace (directions_differ (t_type x) (t_type x)) with false
      by (destruct (t_type x) as [| |? [] ?]; reflexivity).
    split; [exact Ey|]. split; auto. split; auto. split; [rewrite Sy; cbn; now rewrite app_nil_r|].
    split; [|cbn; congruence]. intro G. apply Ky. cbn in G. tauto.
  - (* conjunction on the left *)
    inversion IH as [|? ? _ IH1]; subst. inversion IH1 as [|? ? IHx _]; subst.
    assert (Dx : deriv x) by assumption. destruct (IHx Dx) as (y & Ey & Ry & Ty & Sy & Ky).
    assert (Cj : c_is_conjoinable c = true) by (match goal with O : c = _ \/ c = _ |- _ => destruct O; subst; reflexivity end).
    assert (Nc : cty_eqb (t // t_type x) c = false) by (match goal with O : c = _ \/ c = _ |- _ => destruct O; subst; reflexivity end).
    assert (Nw : truthy (Some w) = true) by (cbn; apply negb_true_iff; now apply String.eqb_neq).
    set (leaf' := CT (Some w) LEXICAL (t // t_type x) []).
    assert (El : resolved (CT (Some w) LEXICAL c []) (t // t_type x) = Ok leaf').
    { cbn [resolved]. rewrite Nc. unfold mk_tree. cbn [rule_eqb negb andb t_text]. rewrite Nw. reflexivity. }
    assert (A : all2 ctree_eqb [leaf'; y] [CT (Some w) LEXICAL c []; x] = false).
    { cbn [all2]. unfold leaf'. cbn [ctree_eqb t_type]. rewrite Nc. now rewrite !andb_false_r. }
    exists (CT None FA t [leaf'; y]). split; [|split; [|split; [reflexivity|split]]].
    + cbn [resolved resolve map t_type unpack2 bind]. rewrite !Cj. cbn [bind zipR].
      unfold c_lshift, c_over. rewrite El. cbn [bind]. rewrite Ey. cbn [bind].
      rewrite A. reflexivity.
    + constructor; auto.
      * cbn [map t_type leaf']. rewrite Ty. constructor.
      * constructor; [apply R_leaf; [split; [auto|apply (deriv_proper Dx)]|discriminate]|]. constructor; auto.
    + cbn. now rewrite Sy, app_nil_r.
    + split; [|cbn; congruence]. intro G. cbn in G |- *. destruct Ky as (Ky & _). intuition.
  - (* conjunction on the right *)
    inversion IH as [|? ? IHx _]; subst.
    assert (Dx : deriv x) by assumption. destruct (IHx Dx) as (y & Ey & Ry & Ty & Sy & Ky).
    assert (Cj : c_is_conjoinable c = true) by (match goal with O : c = _ \/ c = _ |- _ => destruct O; subst; reflexivity end).
    assert (Cx : c_is_conjoinable (t_type x) = false).
    { unfold c_is_conjoinable. rewrite (@cty_eqb_neq (t_type x) CONJUNCTION), (@cty_eqb_neq (t_type x) PUNCTUATION) by assumption. reflexivity. }
    assert (Nc : cty_eqb (t \\ t_type x) c = false) by (match goal with O : c = _ \/ c = _ |- _ => destruct O; subst; reflexivity end).
    assert (Nw : truthy (Some w) = true) by (cbn; apply negb_true_iff; now apply String.eqb_neq).
    set (leaf' := CT (Some w) LEXICAL (t \\ t_type x) []).
    assert (El : resolved (CT (Some w) LEXICAL c []) (t \\ t_type x) = Ok leaf').
    { cbn [resolved]. rewrite Nc. unfold mk_tree. cbn [rule_eqb negb andb t_text]. rewrite Nw. reflexivity. }
    assert (A : all2 ctree_eqb [y; leaf'] [x; CT (Some w) LEXICAL c []] = false).
    { cbn [all2]. unfold leaf'. cbn [ctree_eqb t_type]. rewrite Nc. now rewrite !andb_false_r. }
    exists (CT None BA t [y; leaf']). split; [|split; [|split; [reflexivity|split]]].
    + cbn [resolved resolve map t_type unpack2 bind]. rewrite !Cx, !Cj. cbn [bind zipR].
      rewrite Ey. cbn [bind]. unfold c_rshift, c_under. rewrite El. cbn [bind].
      rewrite A. reflexivity.
    + constructor; auto.
      * cbn [map t_type leaf']. rewrite Ty. constructor.
      * constructor; auto. constructor; auto. apply R_leaf; [split; [auto|apply (deriv_proper Dx)]|discriminate].
    + cbn. now rewrite Sy.
    + split; [|cbn; congruence]. intro G. cbn in G |- *. destruct Ky as (Ky & _). intuition.
Qed.
