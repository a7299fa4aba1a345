(** Deleting trivial unary nodes does not change the diagram of a derivation. *)
From Verif Require Import PyBase PyFacts TyModel TyFacts DiagModel DiagSpec DiagFacts DiagCups DiagKinds
  CCGModel CCGSpec CCGTypeFacts CCGRuleFacts CCGTreeFacts CCGDiagFacts CCGMoreFacts.
Set Implicit Arguments.
Unset Strict Implicit.

(** same tree up to the texts of inner nodes *)
Inductive sim : ctree -> ctree -> Prop :=
| Sim s s' r t cs ds : (r = LEXICAL -> t_text (CT s r t cs) = t_text (CT s' r t ds)) ->
    Forall2 sim cs ds -> sim (CT s r t cs) (CT s' r t ds).

Lemma sim_type a b : sim a b -> t_type a = t_type b.
Proof. now destruct 1. Qed.
Lemma sim_types l l' : Forall2 sim l l' -> map t_type l = map t_type l'.
Proof. intro F. induction F as [|a b l l' E F IH]; cbn; auto. rewrite (sim_type E). congruence. Qed.
Lemma sim_refl x : sim x x.
Proof. induction x as [s r t cs IH] using ctree_ind'. constructor; auto. induction IH; auto. Qed.
Lemma sim_trans a : forall b c, sim a b -> sim b c -> sim a c.
Proof.
  induction a as [s r t cs IH] using ctree_ind'. intros b c A B. inversion A as [? s' ? ? ? ds E F]; subst. inversion B as [? s'' ? ? ? es E' F']; subst.
  constructor; [intro L; now rewrite E, E'|].
  clear - IH F F'. revert ds es F F'. induction IH as [|c cs Hc _ IHcs]; intros ds es F F'; inversion F; subst; inversion F'; subst; constructor; eauto.
Qed.
Lemma sim_sym a : forall b, sim a b -> sim b a.
Proof.
  induction a as [s r t cs IH] using ctree_ind'. intros b A. inversion A as [? s' ? ? ? ds E F]; subst.
  constructor; [intro L; now rewrite E|].
  clear - IH F. revert ds F. induction IH as [|c cs Hc _ IHcs]; intros ds F; inversion F; subst; constructor; auto.
Qed.
Lemma teq_sim a : forall b, teq a b -> sim a b.
Proof.
  induction a as [s r t cs IH] using ctree_ind'. intros b A. inversion A as [? ? E1 E2 E3 F]; subst. destruct b as [s' r' t' ds]. cbn in *. subst.
  constructor; auto.
  clear - IH F. revert ds F. induction IH as [|c cs Hc _ IHcs]; intros ds F; inversion F; subst; constructor; auto.
Qed.
Lemma sim_diag planar a : forall b, sim a b -> to_diag_pair planar a = to_diag_pair planar b.
Proof.
  induction a as [s r t cs IH] using ctree_ind'. intros b A. inversion A as [? s' ? ? ? ds E F]; subst.
  assert (M : mapR (to_diag_pair planar) cs = mapR (to_diag_pair planar) ds).
  { clear - IH F. revert ds F. induction IH as [|c cs Hc _ IHcs]; intros ds F; inversion F; subst; auto.
    cbn [mapR]. rewrite (Hc _ H1), (IHcs _ H3). reflexivity. }
  pose proof (sim_types F) as Ty.
  assert (U : forall A (k : ctree * ctree -> res A), (forall p q, t_type (fst p) = t_type (fst q) -> t_type (snd p) = t_type (snd q) -> k p = k q) ->
     (do c <- unpack2 cs; k c) = (do c <- unpack2 ds; k c)).
  { clear - F. intros A k K. destruct F as [|a b l l' E F]; auto. destruct F as [|a' b' l l' E' F]; auto. destruct F; auto.
    cbn. apply K; cbn; now apply sim_type. }
  destruct r; cbn [to_diag_pair]; rewrite <- ?Ty, <- ?M.
  2: { rewrite (E eq_refl). reflexivity. }
  all: try reflexivity.
  all: destruct (apply_rule _ _ _); cbn [bind]; auto; destruct (mapR (to_diag_pair planar) cs) as [ch|]; cbn [bind]; auto;
    destruct planar; auto; destruct (unpack2 ch) as [((? & ?) & (? & ?))|]; cbn [bind]; auto;
    apply U; intros p q E1 E2; rewrite ?E1, ?E2; reflexivity.
Qed.

Fixpoint canon (x : ctree) : ctree :=
  match x with
  | CT _ LEXICAL _ _ => x
  | CT _ UNARY _ [c] => canon c
  | CT _ CONJ t [a; b] =>
      if c_is_conjoinable (t_type a)
      then CT None FA t [CT (t_rawtext a) LEXICAL (t // t_type b) []; canon b]
      else CT None BA t [canon a; CT (t_rawtext b) LEXICAL (t \\ t_type a) []]
  | CT s r t cs => CT None r t (map canon cs)
  end.
Lemma canon_node s r t cs : r <> LEXICAL -> r <> UNARY -> r <> CONJ -> canon (CT s r t cs) = CT None r t (map canon cs).
Proof. destruct r; congruence || reflexivity. Qed.

Lemma build_sim s ru cs ys t zs : ru <> LEXICAL -> Forall2 sim ys zs -> List.length ys = required_children ru ->
  forall y, (if all2 ctree_eqb ys cs && cty_eqb t t then Ok (CT s ru t cs) else mk_tree None ru t ys) = Ok y ->
  sim y (CT None ru t zs).
Proof.
  intros NL F L y E. rewrite cty_eqb_refl, andb_true_r in E. destruct (all2 ctree_eqb ys cs) eqn:A.
  - injection E as <-. apply all2_iff in A. constructor; [congruence|].
    clear - A F. revert zs F. induction A as [|a b l l' E A IH]; intros zs F; inversion F; subst; constructor; auto.
    eapply sim_trans; [apply sim_sym, teq_sim; eassumption|assumption].
  - unfold mk_tree in E. rewrite L, Nat.eqb_refl in E. cbn [negb] in E. rewrite andb_false_r in E. injection E as <-.
    constructor; [cbn [truthy andb]; congruence|exact F].
Qed.

Lemma resolved_canon x : deriv x -> exists y, resolved x (t_type x) = Ok y /\ sim y (canon x).
Proof.
  induction x as [s r t cs IH] using ctree_ind'. intro D.
  destruct (resolved_deriv D) as (y0 & E0 & _). cbn [t_type] in *. exists y0. split; auto.
  assert (Kids : Forall deriv cs -> exists ys, zipR resolved cs (map t_type cs) = Ok ys /\ Forall2 sim ys (map canon cs)).
  { intro Ds. clear D E0. induction IH as [|c cs Hc _ IHcs]; [exists []; cbn; auto|].
    inversion Ds; subst. destruct (Hc H1) as (y & E & Ky). destruct (IHcs H2) as (ys & Es & Ks).
    exists (y :: ys). cbn [map zipR]. rewrite E. cbn [bind]. rewrite Es. cbn. auto. }
  inversion D; subst.
  - cbn [resolved] in E0. rewrite cty_eqb_refl in E0. injection E0 as <-. apply sim_refl.
  - assert (I : instance r (map t_type cs) t) by assumption. assert (Ds : Forall deriv cs) by assumption.
    destruct (Kids Ds) as (ys & E & Ks). destruct (instance_not I) as (NL & _ & _ & NU & NC & _).
    rewrite canon_node by auto.
    assert (L : List.length ys = required_children r).
    { rewrite <- (instance_arity I), map_length, (Forall2_len' Ks), map_length. reflexivity. }
    pose proof (resolve_same I) as Res.
    assert (FC' : r = FC -> exists c0 c1, cs = [c0; c1] /\ (t_rule c0 = FTR ->
                exists X Y0 Z0, t = X // Z0 /\ t_type c0 = X // (X \\ Y0) /\ t_type c1 = (X \\ Y0) // Z0)).
    { intros ->. pose proof (instance_arity I) as Ar. rewrite map_length in Ar.
      destruct cs as [|c0 [|c1 [|? ?]]]; try discriminate. exists c0, c1. split; auto. intro Hr.
      cbn [map] in I. inversion I; subst. inversion Ds as [|? ? Dc _]; subst. destruct (ftr_shape Dc Hr) as (T & x & Ec).
      match goal with H : _ = t_type c0 |- _ => rewrite Ec in H; injection H as -> -> end.
      exists T, x, Z. split; auto. }
    rewrite (resolved_schematic s (instance_schematic I) Res FC') in E0. rewrite E in E0. cbn [bind] in E0.
    eapply build_sim; eauto.
  - inversion IH as [|? ? _ IH1]; subst. inversion IH1 as [|? ? IHx _]; subst.
    assert (Dx : deriv x) by assumption. destruct (IHx Dx) as (y & Ey & Ky).
    match goal with P : punct_leaf _ |- _ => destruct P as (sp & ->) end.
    cbn [resolved resolve map t_type unpack2 bind zipR] in E0. rewrite cty_eqb_refl in E0. cbn [bind] in E0. rewrite Ey in E0. cbn [bind] in E0.
    rewrite canon_node by discriminate. eapply build_sim; [discriminate| | |exact E0]; [|reflexivity]. cbn [map]. constructor; [apply sim_refl|]. auto.
  - inversion IH as [|? ? IHx _]; subst.
    assert (Dx : deriv x) by assumption. destruct (IHx Dx) as (y & Ey & Ky).
    match goal with P : punct_leaf _ |- _ => destruct P as (sp & ->) end.
    cbn [resolved resolve map t_type unpack2 bind zipR] in E0. rewrite Ey in E0. cbn [bind] in E0. rewrite cty_eqb_refl in E0. cbn [bind] in E0.
    rewrite canon_node by discriminate. eapply build_sim; [discriminate| | |exact E0]; [|reflexivity]. cbn [map]. constructor; [auto|]. constructor; [apply sim_refl|]. auto.
  - inversion IH as [|? ? IHx _]; subst. assert (Dx : deriv x) by assumption. destruct (IHx Dx) as (y & Ey & Ky).
    cbn [resolved] in E0. replace (directions_differ (t_type x) (t_type x)) with false in E0
      by (destruct (t_type x) as [| |? [] ?]; reflexivity).
    rewrite Ey in E0. injection E0 as <-. exact Ky.
  - inversion IH as [|? ? _ IH1]; subst. inversion IH1 as [|? ? IHx _]; subst.
    assert (Dx : deriv x) by assumption. destruct (IHx Dx) as (y & Ey & Ky).
    assert (Cj : c_is_conjoinable c = true) by (match goal with O : c = _ \/ c = _ |- _ => destruct O; subst; reflexivity end).
    assert (Nc : cty_eqb (t // t_type x) c = false) by (match goal with O : c = _ \/ c = _ |- _ => destruct O; subst; reflexivity end).
    assert (Nw : truthy (Some w) = true) by (cbn; apply negb_true_iff; now apply String.eqb_neq).
    assert (El : resolved (CT (Some w) LEXICAL c []) (t // t_type x) = Ok (CT (Some w) LEXICAL (t // t_type x) [])).
    { cbn [resolved]. rewrite Nc. unfold mk_tree. cbn [rule_eqb negb andb t_text]. rewrite Nw. reflexivity. }
    assert (A : all2 ctree_eqb [CT (Some w) LEXICAL (t // t_type x) []; y] [CT (Some w) LEXICAL c []; x] = false).
    { cbn [all2]. cbn [ctree_eqb t_type]. rewrite Nc. now rewrite !andb_false_r. }
    cbn [resolved resolve map t_type unpack2 bind] in E0. rewrite !Cj in E0. cbn [bind zipR] in E0.
    unfold c_lshift, c_over in E0. rewrite El in E0. cbn [bind] in E0. rewrite Ey in E0. cbn [bind] in E0.
    rewrite A in E0. injection E0 as <-. cbn [canon t_type t_rawtext]. rewrite Cj.
    constructor; [discriminate|]. constructor; [apply sim_refl|]. auto.
  - inversion IH as [|? ? IHx _]; subst.
    assert (Dx : deriv x) by assumption. destruct (IHx Dx) as (y & Ey & Ky).
    assert (Cj : c_is_conjoinable c = true) by (match goal with O : c = _ \/ c = _ |- _ => destruct O; subst; reflexivity end).
    assert (Cx : c_is_conjoinable (t_type x) = false).
    { unfold c_is_conjoinable. rewrite (@cty_eqb_neq (t_type x) CONJUNCTION), (@cty_eqb_neq (t_type x) PUNCTUATION) by assumption. reflexivity. }
    assert (Nc : cty_eqb (t \\ t_type x) c = false) by (match goal with O : c = _ \/ c = _ |- _ => destruct O; subst; reflexivity end).
    assert (Nw : truthy (Some w) = true) by (cbn; apply negb_true_iff; now apply String.eqb_neq).
    assert (El : resolved (CT (Some w) LEXICAL c []) (t \\ t_type x) = Ok (CT (Some w) LEXICAL (t \\ t_type x) [])).
    { cbn [resolved]. rewrite Nc. unfold mk_tree. cbn [rule_eqb negb andb t_text]. rewrite Nw. reflexivity. }
    assert (A : all2 ctree_eqb [y; CT (Some w) LEXICAL (t \\ t_type x) []] [x; CT (Some w) LEXICAL c []] = false).
    { cbn [all2]. cbn [ctree_eqb t_type]. rewrite Nc. now rewrite !andb_false_r. }
    cbn [resolved resolve map t_type unpack2 bind] in E0. rewrite !Cx, !Cj in E0. cbn [bind zipR] in E0.
    rewrite Ey in E0. cbn [bind] in E0. unfold c_rshift, c_under in E0. rewrite El in E0. cbn [bind] in E0.
    rewrite A in E0. injection E0 as <-. cbn [canon t_type t_rawtext]. rewrite Cx.
    constructor; [discriminate|]. constructor; [auto|]. constructor; [apply sim_refl|]. auto.
Qed.

Lemma pruned_type a : forall b, pruned a b -> t_type a = t_type b.
Proof.
  induction a as [s r t cs IH] using ctree_ind'. intros b P. inversion P; subst; auto.
  cbn [t_type]. inversion IH; subst. auto.
Qed.
Lemma pruned_leaf s r t b : pruned (CT s r t []) b -> b = CT s r t [].
Proof. intro P. inversion P as [? ? ? ? ? F|]; subst. now inversion F. Qed.
Lemma pruned_punct p b : punct_leaf p -> pruned p b -> b = p.
Proof. intros (s & ->) P. now apply pruned_leaf in P. Qed.

Lemma pruned_deriv a : forall b, pruned a b -> deriv a -> deriv b /\ sim (canon b) (canon a).
Proof.
  induction a as [s r t cs IH] using ctree_ind'. intros b P D.
  inversion P as [? ? ? ? ds F|? c ? Pc]; subst.
  - assert (Ty : map t_type cs = map t_type ds).
    { clear - F. induction F as [|x y l l' Pxy F IHF]; cbn; auto. rewrite (pruned_type Pxy). congruence. }
    inversion D; subst.
    + inversion F; subst. split; auto. apply sim_refl.
    + assert (I : instance r (map t_type cs) t) by assumption. assert (Ds : Forall deriv cs) by assumption.
      assert (K : Forall deriv ds /\ Forall2 sim (map canon ds) (map canon cs)).
      { clear - IH F Ds. revert ds F. induction IH as [|c cs Hc _ IHcs]; intros ds F; inversion F; subst; [split; constructor|].
        inversion Ds; subst. destruct (Hc _ H1 H2). destruct (IHcs H4 _ H3). split; cbn; constructor; auto. }
      destruct K as (K1 & K2). destruct (instance_not I) as (NL & _ & _ & NU & NC & _). split.
      * apply D_rule; auto. now rewrite <- Ty.
      * rewrite !canon_node by auto. constructor; [congruence|auto].
    + inversion F as [|? p' ? ? Pp F1]; subst. inversion F1 as [|? x' ? ? Px F2]; subst. inversion F2; subst.
      rewrite (@pruned_punct p p') by assumption.
      inversion IH as [|? ? _ IH1]; subst. inversion IH1 as [|? ? IHx _]; subst.
      assert (Dx : deriv x) by assumption. destruct (IHx _ Px Dx) as (D' & S'). rewrite (pruned_type Px). split.
      * now apply D_LP.
      * rewrite !canon_node by discriminate. constructor; [discriminate|]. cbn [map]. constructor; [apply sim_refl|auto].
    + inversion F as [|? p' ? ? Pp F1]; subst. inversion F1 as [|? x' ? ? Px F2]; subst. inversion F2; subst.
      rewrite (@pruned_punct p x') by assumption.
      inversion IH as [|? ? IHx _]; subst.
      assert (Dx : deriv x) by assumption. destruct (IHx _ Pp Dx) as (D' & S'). rewrite (pruned_type Pp). split.
      * now apply D_RP.
      * rewrite !canon_node by discriminate. constructor; [discriminate|]. cbn [map]. constructor; [auto|]. constructor; [apply sim_refl|auto].
    + inversion F as [|? x' ? ? Pp F1]; subst. inversion F1; subst. inversion IH as [|? ? IHx _]; subst.
      assert (Dx : deriv x) by assumption. destruct (IHx _ Pp Dx) as (D' & S'). rewrite (pruned_type Pp). split; [now apply D_unary|auto].
    + inversion F as [|? p' ? ? Pp F1]; subst. inversion F1 as [|? x' ? ? Px F2]; subst. inversion F2; subst.
      apply pruned_leaf in Pp. subst p'.
      inversion IH as [|? ? _ IH1]; subst. inversion IH1 as [|? ? IHx _]; subst.
      assert (Dx : deriv x) by assumption. destruct (IHx _ Px Dx) as (D' & S'). split.
      * now apply D_conj_l.
      * cbn [canon t_type t_rawtext]. rewrite (pruned_type Px).
        assert (Cj : c_is_conjoinable c = true) by (match goal with O : c = _ \/ c = _ |- _ => destruct O; subst; reflexivity end).
        rewrite Cj. constructor; [discriminate|]. constructor; [apply sim_refl|auto].
    + inversion F as [|? x' ? ? Px F1]; subst. inversion F1 as [|? p' ? ? Pp F2]; subst. inversion F2; subst.
      apply pruned_leaf in Pp. subst p'.
      inversion IH as [|? ? IHx _]; subst.
      assert (Dx : deriv x) by assumption. destruct (IHx _ Px Dx) as (D' & S'). pose proof (pruned_type Px) as Tx. split.
      * rewrite Tx in *. now apply D_conj_r.
      * cbn [canon t_type t_rawtext]. rewrite <- Tx.
        assert (Cx : c_is_conjoinable (t_type x) = false).
        { unfold c_is_conjoinable. rewrite (@cty_eqb_neq (t_type x) CONJUNCTION), (@cty_eqb_neq (t_type x) PUNCTUATION) by assumption. reflexivity. }
        rewrite Cx. constructor; [discriminate|]. constructor; [auto|]. constructor; [apply sim_refl|auto].
  - inversion IH as [|? ? IHc _]; subst. inversion D; subst.
    + match goal with I : instance UNARY _ _ |- _ => inversion I end.
    + cbn [canon]. auto.
Qed.

Lemma pruned_retype f a : forall b, pruned a b -> pruned (retype f a) (retype f b).
Proof.
  induction a as [s r t cs IH] using ctree_ind'. intros b P. inversion P as [? ? ? ? ds F|? c ? Pc]; subst; cbn [retype map].
  - apply Pr_node. clear - IH F. revert ds F. induction IH as [|c cs Hc _ IHcs]; intros ds F; inversion F; subst; cbn; constructor; auto.
  - rewrite <- (retype_type f c). apply Pr_drop. inversion IH; subst. auto.
Qed.

Lemma pruned_same_diagram planar collapse x y : deriv x -> pruned x y ->
  tree_to_diagram planar collapse y = tree_to_diagram planar collapse x.
Proof.
  assert (G : forall x y, deriv x -> pruned x y -> tree_to_diagram planar false y = tree_to_diagram planar false x).
  { clear. intros x y D P. destruct (pruned_deriv P D) as (D' & S'). unfold tree_to_diagram. cbn [bind].
    destruct (resolved_canon D) as (x' & -> & Sx). destruct (resolved_canon D') as (y' & -> & Sy). cbn [bind].
    rewrite (sim_diag planar Sx), (sim_diag planar Sy), (sim_diag planar S'). reflexivity. }
  intros D P. destruct collapse; [|now apply G].
  destruct (pruned_deriv P D) as (D' & _).
  rewrite (proj1 (collapse_diagram planar D)), (proj1 (collapse_diagram planar D')).
  apply G; [apply (collapse_diagram planar D)|now apply pruned_retype].
Qed.
