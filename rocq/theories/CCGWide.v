(** Proofs about CCGTree: trees whose unary nodes change types. *)
From Verif Require Import PyBase PyFacts TyModel TyFacts DiagModel DiagSpec DiagFacts DiagCups DiagKinds
  CCGModel CCGSpec CCGTypeFacts CCGRuleFacts CCGTreeFacts CCGDiagFacts CCGMoreFacts.
Set Implicit Arguments.
Unset Strict Implicit.

Lemma build_ready' s ru cs ys t o : ru <> LEXICAL -> ready (CT None ru o ys) -> List.length ys = required_children ru ->
  exists y, (if all2 ctree_eqb ys cs && cty_eqb o t then Ok (CT s ru t cs) else mk_tree None ru o ys) = Ok y /\
    ready y /\ t_type y = o /\ sentence y = sentence (CT None ru o ys) /\ (y = CT s ru t cs \/ y = CT None ru o ys).
Proof.
  intros NL R L. destruct (cty_eqb o t) eqn:E.
  - apply cty_eqb_iff in E. subst o. destruct (build_ready s cs NL R L) as (y & Ey & H). rewrite cty_eqb_refl in Ey. eauto.
  - rewrite andb_false_r. unfold mk_tree. rewrite L, Nat.eqb_refl. cbn [negb]. rewrite andb_false_r. cbn [truthy andb]. eexists. split; [reflexivity|]. auto.
Qed.
Lemma takes_proper x : forall o, takes x o -> proper o.
Proof.
  induction x as [s r t cs IH] using ctree_ind'. intros o D. inversion D; subst; auto;
    repeat match goal with H : Forall _ (_ :: _) |- _ => inversion H; subst; clear H end;
    repeat match goal with H : forall o, takes ?x o -> proper o, K : takes ?x _ |- _ => apply H in K; cbn in K end; cbn; tauto.
Qed.
Lemma not_turned o u : ~ turned o u -> directions_differ o u = false.
Proof.
  intro H. destruct o as [| |r d x], u as [| |r' d' x']; auto. cbn. destruct d, d'; auto; exfalso; apply H; repeat eexists; discriminate.
Qed.
Lemma takes_ftr_shape c : takes c (t_type c) -> t_rule c = FTR -> exists T x, t_type c = T // (T \\ x).
Proof.
  intros D E. destruct c as [s r t cs]. cbn [t_type t_rule] in *. subst r. inversion D; subst. match goal with I : instance FTR _ _ |- _ => inversion I; subst end. eauto.
Qed.
Definition resolves (x : ctree) (o : cty) (y : ctree) : Prop := resolved x o = Ok y /\ ready y /\ t_type y = o /\ sentence y = sentence x /\ keeps x y.
Lemma resolved_takes x : forall o, takes x o -> exists y, resolves x o y.
Proof.
  induction x as [s r t cs IH] using ctree_ind'. intros o D.
  assert (Kids : Forall2 takes cs (map t_type cs) -> exists ys, zipR resolved cs (map t_type cs) = Ok ys /\
     Forall ready ys /\ map t_type ys = map t_type cs /\ map sentence ys = map sentence cs /\ Forall2 keeps cs ys).
  { intro Ds. clear D. induction IH as [|c cs Hc _ IHcs]; [exists []; cbn; auto using Forall2_nil|].
    inversion Ds; subst. match goal with H : takes c _ |- _ => destruct (Hc _ H) as (y & E & Ry & Ty & Sy & Ky) end. match goal with H : Forall2 takes cs _ |- _ => destruct (IHcs H) as (ys & Es & Rs & Ts & Ss & Ks) end.
    exists (y :: ys). cbn [map zipR]. rewrite E. cbn [bind]. rewrite Es. cbn. rewrite Ty, Sy, Ts, Ss. split; auto. }
  (* two children, an instance of a rule once they have the new types *)
  assert (Two : forall a b l r0, cs = [a; b] -> instance r [l; r0] o -> proper o -> resolve r [t_type a; t_type b] o = Ok [l; r0] ->
      (r = FC -> t_rule a <> FTR) -> takes a l -> takes b r0 -> exists y, resolves (CT s r t cs) o y).
  { intros a b l r0 -> I Po Res NF Ta Tb. inversion IH as [|? ? IHa IH1]; subst. inversion IH1 as [|? ? IHb _]; subst.
    destruct (IHa _ Ta) as (ya & Ea & Ra & Tya & Sa & Ka). destruct (IHb _ Tb) as (yb & Eb & Rb & Tyb & Sb & Kb).
    destruct (instance_not I) as (NL & NLP & NRP & NU & NC & NK).
    assert (R : ready (CT None r o [ya; yb])). { constructor; auto. cbn [map]. rewrite Tya, Tyb. exact I. }
    destruct (@build_ready' s r [a; b] [ya; yb] t o NL R (Logic.eq_sym (Logic.eq_sym (instance_arity I)))) as (y & Ey & Ry & Ty & Sy & Ky).
    exists y. split; [|split; [auto|split; [auto|split]]].
    - assert (G : zipR resolved [a; b] [l; r0] = Ok [ya; yb]). { cbn [zipR]. rewrite Ea. cbn [bind]. rewrite Eb. reflexivity. }
      destruct r; try congruence; try (inversion I; fail); cbn [resolved map]; rewrite ?Res; cbn [bind]; rewrite ?G; cbn [bind]; try exact Ey.
      replace (rule_eqb (t_rule a) FTR) with false; [rewrite ?Res; cbn [bind]; rewrite ?G; cbn [bind]; exact Ey|].
      symmetry. destruct (rule_eqb (t_rule a) FTR) eqn:Q; auto. apply rule_eqb_iff in Q. exfalso. now apply NF.
    - rewrite Sy, !sentence_node by auto. cbn [map]. now rewrite Sa, Sb.
    - split; [|cbn; congruence]. intro G. destruct Ky as [->| ->]; auto. exact (gx_node None o (Forall2_cons _ _ Ka (Forall2_cons _ _ Kb (Forall2_nil _))) G). }
  inversion D; subst.
  - exists (CT s LEXICAL o []). unfold resolves. cbn [resolved]. rewrite cty_eqb_refl. split; [reflexivity|]. split; [now constructor|]. repeat split; auto.
  - destruct (cty_eqb o t) eqn:E.
    + apply cty_eqb_iff in E. subst t. exists (CT (Some w) LEXICAL o []). unfold resolves. cbn [resolved]. rewrite cty_eqb_refl. split; [reflexivity|]. split; [now constructor|]. repeat split; auto.
    + exists (CT (Some w) LEXICAL o []). unfold resolves. cbn [resolved]. rewrite E. unfold mk_tree. cbn [rule_eqb negb andb t_text truthy]. rewrite (proj2 (String.eqb_neq _ _)) by assumption.
      split; [reflexivity|]. split; [now constructor|]. repeat split; auto.
  - (* rule instance *)
    assert (I : instance r (map t_type cs) o) by assumption. assert (F2 : Forall2 takes cs (map t_type cs)) by assumption.
    destruct (Kids F2) as (ys & E & Rs & Ts & Ss & Ks).
    assert (NL : r <> LEXICAL) by apply (instance_not I).
    assert (R : ready (CT None r o ys)) by (constructor; auto; now rewrite Ts).
    assert (L : List.length ys = required_children r). { rewrite <- (instance_arity I). rewrite <- (map_length t_type ys), Ts. reflexivity. }
    destruct (build_ready s cs NL R L) as (y & Ey & Ry & Ty & Sy & Ky).
    exists y. split; [|split; [auto|split; [auto|split]]].
    + pose proof (resolve_same I) as Res.
      assert (FC' : r = FC -> exists c0 c1, cs = [c0; c1] /\ (t_rule c0 = FTR -> exists X Y0 Z0, o = X // Z0 /\ t_type c0 = X // (X \\ Y0) /\ t_type c1 = (X \\ Y0) // Z0)).
      { intros ->. pose proof (instance_arity I) as Ar. rewrite map_length in Ar. destruct cs as [|c0 [|c1 [|? ?]]]; try discriminate. exists c0, c1. split; auto. intro Hr.
        inversion F2 as [|? ? ? ? Dc _]; subst. destruct (takes_ftr_shape Dc Hr) as (T & x & Ec). cbn [map] in I. inversion I; subst.
        match goal with H : _ = t_type c0 |- _ => rewrite Ec in H; injection H as -> -> end. exists T, x, Z. split; auto. }
      rewrite (resolved_schematic s (instance_schematic I) Res FC'). rewrite E. cbn [bind]. exact Ey.
    + rewrite Sy. destruct (instance_not I) as (? & ? & ? & _). rewrite !sentence_node by auto. congruence.
    + split; [|cbn; congruence]. intro G. destruct Ky as [->| ->]; auto. exact (gx_node None o Ks G).
  - eapply Two; [reflexivity|apply (I_FA o (t_type b))|exact (takes_proper D)|reflexivity|discriminate|eassumption|eassumption].
  - eapply Two; [reflexivity|apply (I_BA o (t_type a))|exact (takes_proper D)|reflexivity|discriminate|eassumption|eassumption].
  - match goal with Ha : takes a _, Hb : takes b _ |- _ => assert (P1 := takes_proper Ha); assert (P2 := takes_proper Hb) end. cbn in P1, P2. eapply Two; [reflexivity|apply (I_FC X' Y Z')|cbn; tauto| |auto|eassumption|eassumption].
    match goal with Ha : t_type a = _, Hb : t_type b = _ |- _ => rewrite Ha, Hb end. cbn [resolve unpack2 bind c_right c_left]. rewrite check_match_refl. reflexivity.
  - match goal with Ha : takes a _, Hb : takes b _ |- _ => assert (P1 := takes_proper Ha); assert (P2 := takes_proper Hb) end. cbn in P1, P2. eapply Two; [reflexivity|apply (I_BC X' Y Z')|cbn; tauto| |discriminate|eassumption|eassumption].
    match goal with Ha : t_type a = _, Hb : t_type b = _ |- _ => rewrite Ha, Hb end. cbn [resolve unpack2 bind c_right c_left]. rewrite check_match_refl. reflexivity.
  - match goal with Ha : takes a _, Hb : takes b _ |- _ => assert (P1 := takes_proper Ha); assert (P2 := takes_proper Hb) end. cbn in P1, P2. eapply Two; [reflexivity|apply (I_FX X' Y Z')|cbn; tauto| |discriminate|eassumption|eassumption].
    match goal with Ha : t_type a = _, Hb : t_type b = _ |- _ => rewrite Ha, Hb end. cbn [resolve unpack2 bind c_right c_left]. rewrite check_match_refl. reflexivity.
  - match goal with Ha : takes a _, Hb : takes b _ |- _ => assert (P1 := takes_proper Ha); assert (P2 := takes_proper Hb) end. cbn in P1, P2. eapply Two; [reflexivity|apply (I_BX X' Y Z')|cbn; tauto| |discriminate|eassumption|eassumption].
    match goal with Ha : t_type a = _, Hb : t_type b = _ |- _ => rewrite Ha, Hb end. cbn [resolve unpack2 bind c_right c_left]. rewrite check_match_refl. reflexivity.
  - (* punctuation on the left *)
    match goal with P : punct_leaf _ |- _ => destruct P as (sp & ->) end. inversion IH as [|? ? _ IH1]; subst. inversion IH1 as [|? ? IHx _]; subst.
    match goal with H : takes x _ |- _ => destruct (IHx _ H) as (y & Ey & Ry & Ty & Sy & Ky) end.
    assert (R : ready (CT None LP o [CT sp LEXICAL PUNCTUATION []; y])). { rewrite <- Ty. apply R_LP; auto. now exists sp. }
    destruct (@build_ready' s LP [CT sp LEXICAL PUNCTUATION []; x] _ t o ltac:(discriminate) R (Logic.eq_refl _)) as (z & Ez & Rz & Tz & Sz & Kz).
    exists z. split; [|split; [auto|split; [auto|split]]].
    + cbn [resolved resolve map t_type unpack2 bind zipR]. rewrite cty_eqb_refl. cbn [bind]. rewrite Ey. cbn [bind]. exact Ez.
    + rewrite Sz. exact Sy.
    + split; [|cbn; congruence]. intro G. destruct Kz as [->| ->]; auto. cbn in G |- *. destruct Ky as (Ky & _). intuition.
  - (* punctuation on the right *)
    match goal with P : punct_leaf _ |- _ => destruct P as (sp & ->) end. inversion IH as [|? ? IHx _]; subst.
    match goal with H : takes x _ |- _ => destruct (IHx _ H) as (y & Ey & Ry & Ty & Sy & Ky) end.
    assert (R : ready (CT None RP o [y; CT sp LEXICAL PUNCTUATION []])). { rewrite <- Ty. apply R_RP; auto. now exists sp. }
    destruct (@build_ready' s RP [x; CT sp LEXICAL PUNCTUATION []] _ t o ltac:(discriminate) R (Logic.eq_refl _)) as (z & Ez & Rz & Tz & Sz & Kz).
    exists z. split; [|split; [auto|split; [auto|split]]].
    + cbn [resolved resolve map t_type unpack2 bind zipR]. rewrite Ey. cbn [bind]. rewrite cty_eqb_refl. cbn [bind]. exact Ez.
    + rewrite Sz. exact Sy.
    + split; [|cbn; congruence]. intro G. destruct Kz as [->| ->]; auto. cbn in G |- *. destruct Ky as (Ky & _). intuition.
  - (* unary *)
    inversion IH as [|? ? IHx _]; subst. match goal with H : takes x _ |- _ => destruct (IHx _ H) as (y & Ey & Ry & Ty & Sy & Ky) end.
    exists y. unfold resolves. cbn [resolved]. rewrite not_turned by assumption. split; [exact Ey|]. split; auto. split; auto. split; [rewrite Sy; cbn; now rewrite app_nil_r|].
    split; [|cbn; congruence]. intro G. apply Ky. cbn in G. tauto.
  - (* conjunction on the left *)
    inversion IH as [|? ? IHc IH1]; subst. inversion IH1 as [|? ? IHx _]; subst.
    match goal with H : takes x _ |- _ => destruct (IHx _ H) as (y & Ey & Ry & Ty & Sy & Ky) end. match goal with H : takes c _ |- _ => assert (Po := takes_proper H); destruct (IHc _ H) as (z & Ez & Rz & Tz & Sz & Kz) end.
    assert (Cj : c_is_conjoinable (t_type c) = true) by (match goal with O : t_type c = _ \/ t_type c = _ |- _ => destruct O as [-> | ->]; reflexivity end).
    assert (A : all2 ctree_eqb [z; y] [c; x] = false).
    { destruct (all2 ctree_eqb [z; y] [c; x]) eqn:A; auto. apply all2_iff in A. inversion A as [|? ? ? ? E _]; subst. inversion E as [? ? _ _ Et _]; subst. rewrite Tz in Et.
      match goal with O : t_type c = _ \/ t_type c = _ |- _ => destruct O as [O | O]; rewrite O in Et; discriminate end. }
    exists (CT None FA o [z; y]). split; [|split; [|split; [reflexivity|split]]].
    + cbn [resolved resolve map t_type unpack2 bind]. rewrite !Cj. cbn [bind zipR]. unfold c_lshift, c_over. rewrite Ez. cbn [bind]. rewrite Ey. cbn [bind]. rewrite A. reflexivity.
    + constructor; [|exact (proj1 Po)|auto]. cbn [map t_type]. rewrite Ty, Tz. constructor.
    + rewrite !sentence_node by discriminate. cbn [map]. now rewrite Sy, Sz.
    + split; [|cbn; congruence]. intro G. cbn in G |- *. destruct Ky as (Ky & _), Kz as (Kz & _). intuition.
  - (* conjunction on the right *)
    inversion IH as [|? ? IHx IH1]; subst. inversion IH1 as [|? ? IHc _]; subst.
    match goal with H : takes x _ |- _ => destruct (IHx _ H) as (y & Ey & Ry & Ty & Sy & Ky) end. match goal with H : takes c _ |- _ => assert (Po := takes_proper H); destruct (IHc _ H) as (z & Ez & Rz & Tz & Sz & Kz) end.
    assert (Cj : c_is_conjoinable (t_type c) = true) by (match goal with O : t_type c = _ \/ t_type c = _ |- _ => destruct O as [-> | ->]; reflexivity end).
    assert (Cx : c_is_conjoinable (t_type x) = false).
    { unfold c_is_conjoinable. rewrite (@cty_eqb_neq (t_type x) CONJUNCTION), (@cty_eqb_neq (t_type x) PUNCTUATION) by assumption. reflexivity. }
    assert (A : all2 ctree_eqb [y; z] [x; c] = false).
    { destruct (all2 ctree_eqb [y; z] [x; c]) eqn:A; auto. apply all2_iff in A. inversion A as [|? ? ? ? _ A']; subst. inversion A' as [|? ? ? ? E _]; subst. inversion E as [? ? _ _ Et _]; subst. rewrite Tz in Et.
      match goal with O : t_type c = _ \/ t_type c = _ |- _ => destruct O as [O | O]; rewrite O in Et; discriminate end. }
    exists (CT None BA o [y; z]). split; [|split; [|split; [reflexivity|split]]].
    + cbn [resolved resolve map t_type unpack2 bind]. rewrite !Cx, !Cj. cbn [bind zipR]. rewrite Ey. cbn [bind]. unfold c_rshift, c_under. rewrite Ez. cbn [bind]. rewrite A. reflexivity.
    + constructor; [|exact (proj1 Po)|auto]. cbn [map t_type]. rewrite Ty, Tz. constructor.
    + rewrite !sentence_node by discriminate. cbn [map]. now rewrite Sy, Sz.
    + split; [|cbn; congruence]. intro G. cbn in G |- *. destruct Ky as (Ky & _), Kz as (Kz & _). intuition.
Qed.

Lemma takes_diagram x : takes x (t_type x) -> exists d, tree_to_diagram false false x = Ok d /\ typed d [] (to_grammar (t_type x)) /\ word_names d = sentence x /\ kinds is_plain_box d.
Proof.
  intro D. unfold tree_to_diagram. cbn [bind]. destruct (resolved_takes D) as (y & -> & Ry & Ty & Sy & _). cbn [bind].
  destruct (pairs_false Ry) as (w & g & -> & (W & (Tw & Kw) & (Tg & Kg)) & N). cbn [bind fst snd] in *.
  destruct (typed_then Tw Tg) as (d & E & Td). exists d. rewrite E, <- Ty. split; auto. split; auto. split.
  - rewrite (names_then E), (names_structural Kg), app_nil_r. congruence.
  - unfold kinds. rewrite (boxes_then E). apply Forall_app. split; eapply Forall_impl; try eassumption; intros; [left|right]; auto.
Qed.
Lemma planar_takes x : takes x (t_type x) -> tree_to_diagram true false x = Err ValueError \/ exists d, tree_to_diagram true false x = Ok d /\ typed d [] (to_grammar (t_type x)) /\ kinds noswap d.
Proof.
  intro D. unfold tree_to_diagram. cbn [bind]. destruct (resolved_takes D) as (y & -> & Ry & Ty & Sy & _). cbn [bind].
  destruct (pairs_true Ry) as [E|((w & g) & E & (W & V & Tw & Tg))]; rewrite E; cbn [bind fst snd] in *; [now left|].
  destruct (then_or Tw Tg) as [E'|(d & E' & (T & K))]; [now left|right]. exists d. rewrite <- Ty. auto.
Qed.
Lemma planar_takes_ok x : takes x (t_type x) -> gx_leaf x -> exists d, tree_to_diagram true false x = Ok d /\ typed d [] (to_grammar (t_type x)) /\ Permutation (word_names d) (sentence x) /\ kinds noswap d.
Proof.
  intros D G. unfold tree_to_diagram. cbn [bind]. destruct (resolved_takes D) as (y & -> & Ry & Ty & Sy & (Gy & _)). cbn [bind].
  destruct (pairs_planar Ry (Gy G)) as ((w & g) & -> & Wh). cbn [bind fst snd]. destruct (whole_inner Wh) as (i & E & (T & K) & N). exists i. rewrite <- Ty, <- Sy. auto.
Qed.
(** derivations without type changes are such trees *)
Lemma deriv_takes x : deriv x -> takes x (t_type x).
Proof.
  induction x as [s r t cs IH] using ctree_ind'. intro D. inversion D; subst; cbn [t_type].
  - now apply T_leaf.
  - apply T_rule; auto. match goal with H : Forall deriv cs |- _ => rename H into Ds end. clear - IH Ds. induction IH; cbn; constructor; inversion Ds; auto.
  - inversion IH as [|? ? _ IH1]; subst. inversion IH1; subst. apply T_lp; auto.
  - inversion IH; subst. apply T_rp; auto.
  - inversion IH; subst. apply T_unary; auto. intros (? & d & ? & ? & d' & ? & E1 & E2 & N). rewrite E1 in E2. congruence.
  - inversion IH as [|? ? _ IH1]; subst. inversion IH1 as [|? ? IHx _]; subst. match goal with H : deriv x |- _ => assert (Px := deriv_proper H) end.
    apply T_conj_l; auto. apply T_word; auto; [split; auto|discriminate].
  - inversion IH as [|? ? IHx _]; subst. match goal with H : deriv x |- _ => assert (Px := deriv_proper H) end.
    apply T_conj_r; auto. apply T_word; auto; [split; auto|discriminate].
Qed.
Lemma deriv_parse x : deriv x -> parse_tree x.
Proof. intro D. split; [now apply deriv_takes|now apply deriv_types]. Qed.
Lemma takes_built x : forall o, takes x o -> built x.
Proof.
  induction x as [s r t cs IH] using ctree_ind'. intros o D.
  assert (K : forall s r t cs, Forall built cs -> r <> UNKNOWN -> r <> LEXICAL -> List.length cs = required_children r -> cs <> [] -> built (CT s r t cs)).
  { clear. intros s r t cs F N NL L Ne. apply Built with (s := s) (r := r) (t := t) (cs := cs); auto. apply mk_again with (cs := cs); auto. intros _ E. congruence. }
  assert (Lf : forall s t, built (CT s LEXICAL t [])).
  { clear. intros. apply Built with (s := s) (r := LEXICAL) (t := t) (cs := []); auto. apply mk_again with (cs := []); auto. }
  inversion D; subst; try apply Lf;
    try (apply K; try discriminate; auto; repeat match goal with H : Forall _ (_ :: _) |- _ => inversion H; subst; clear H | P : punct_leaf _ |- _ => destruct P as (sp & ->) end; repeat constructor; eauto; fail).
  assert (I : instance r (map t_type cs) o) by assumption. destruct (instance_not I) as (? & _ & _ & _ & _ & ?). pose proof (instance_arity I) as Ar. rewrite map_length in Ar.
  apply K; auto.
  - match goal with H : Forall2 takes cs _ |- _ => rename H into Ds end. clear - IH Ds. induction IH; constructor; inversion Ds; subst; eauto.
  - intros ->. destruct I; discriminate.
Qed.
Section Rename.
Variable f : string -> string.
Hypothesis fc : f "conj" = "conj"%string.
Hypothesis fp : f "punc" = "punc"%string.
Hypothesis fc' : forall n, f n = "conj"%string -> n = "conj"%string.
Hypothesis fp' : forall n, f n = "punc"%string -> n = "punc"%string.
Lemma turned_rename a b : turned (rename f a) (rename f b) -> turned a b.
Proof. intros (r & d & x & r' & d' & x' & E1 & E2 & N). destruct a as [| |a1 da a2], b as [| |b1 db b2]; try discriminate. injection E1 as _ -> _. injection E2 as _ -> _. repeat eexists. exact N. Qed.
Lemma takes_retype x : forall o, takes x o -> takes (retype f x) (rename f o).
Proof.
  induction x as [s r t cs IH] using ctree_ind'. intros o D. inversion D; subst; cbn [retype map rename];
    repeat match goal with H : Forall _ (_ :: _) |- _ => inversion H; subst; clear H end;
    repeat match goal with H : forall o, takes ?x o -> _, K : takes ?x _ |- _ => apply H in K; cbn [rename] in K end;
    repeat match goal with H : t_type ?x = _ |- _ => is_var x; apply (f_equal (rename f)) in H; cbn [rename] in H; rewrite <- retype_type in H end;
    rewrite <- ?retype_type in *.
  - apply T_leaf; [now apply rename_proper|now apply rename_not_punct].
  - apply T_word; [assumption|now apply rename_proper|now apply rename_not_punct].
  - apply T_rule; [rewrite retype_types; now apply instance_rename|now apply rename_proper|]. match goal with H : Forall2 takes cs _ |- _ => rename H into Ds end.
    clear - IH Ds. induction IH; cbn; constructor; inversion Ds; subst; auto. rewrite retype_type. auto.
  - now apply T_fa.
  - now apply T_ba.
  - eapply T_fc; eauto. now rewrite retype_rule.
  - eapply T_bc; eauto.
  - eapply T_fx; eauto.
  - eapply T_bx; eauto.
  - apply T_lp; auto. now apply retype_punct.
  - apply T_rp; auto. now apply retype_punct.
  - apply T_unary; auto. intro H. rewrite retype_type in H. apply turned_rename in H. auto.
  - apply T_conj_l; auto. rewrite retype_type. match goal with O : t_type c = _ \/ t_type c = _ |- _ => destruct O as [O | O]; rewrite O; cbn; rewrite ?fc, ?fp; auto end.
  - apply T_conj_r; auto; rewrite retype_type; [match goal with O : t_type c = _ \/ t_type c = _ |- _ => destruct O as [O | O]; rewrite O; cbn; rewrite ?fc, ?fp; auto end|now apply rename_not_conj|now apply rename_not_punct].
Qed.
End Rename.
Lemma collapse_takes planar x : parse_tree x -> tree_to_diagram planar true x = tree_to_diagram planar false (retype np_to_n x) /\ takes (retype np_to_n x) (t_type (retype np_to_n x)).
Proof.
  intros (D & A). destruct np_facts as (? & ? & ? & ?). split; [|rewrite retype_type; now apply takes_retype].
  unfold tree_to_diagram. rewrite (collapse_retype (takes_built D) A). reflexivity.
Qed.
