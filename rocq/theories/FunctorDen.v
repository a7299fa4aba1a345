(** The denotation of the image of a diagram, and interpretations pulled back along a functor (lemmas only). *)
From Verif Require Import PyBase PyFacts TyModel TyFacts DiagModel DiagSpec DiagFacts DiagRot DiagPerm DiagCups DiagMisc BoxEq FunctorModel FunctorSpec FunctorCache FunctorFacts Cat CatFacts CatDual TurnSpec FunctorDenSpec.
Set Implicit Arguments. Unset Strict Implicit.

(** ** nested cups and caps of the reversed orientation are dual *)
Section Rev.
  Variable C : smc.
  Variable I : interp C.
  Notation ob := (obt C (obi I)).
  Fixpoint rcups (t : ty) : Hom C :=
    match t with
    | [] => idm C (unit_ob C)
    | a :: t' => cmp C (tns C (idm C (ob (rev (map (rot_atom 1) t')))) (tns C (ari I (Cup (rot_atom 1 a) a true)) (idm C (ob t')))) (rcups t')
    end.
  Fixpoint rcaps (t : ty) : Hom C :=
    match t with
    | [] => idm C (unit_ob C)
    | a :: t' => cmp C (ari I (Cap a (rot_atom 1 a) true)) (tns C (idm C (obi I a)) (tns C (rcaps t') (idm C (obi I (rot_atom 1 a)))))
    end.
  Lemma rot_forth a : rot_atom (-1) (rot_atom 1 a) = a.
  Proof. rewrite rot_atom_add. apply rot_atom_0. Qed.
  Lemma rcups_types t : src C (rcups t) = ot C (ob (rev (map (rot_atom 1) t))) (ob t) /\ tgt C (rcups t) = unit_ob C.
  Proof.
    induction t as [|a t [I1 I2]].
    - cbn. rewrite src_idm, tgt_idm, ot_unit_l. auto.
    - cbn [rcups]. assert (B : box_ok (Cup (rot_atom 1 a) a true)) by reflexivity.
      assert (S1 := ari_src _ I _ B). assert (T1 := ari_tgt _ I _ B). cbn [b_dom b_cod b_end obt] in S1, T1. rewrite ot_unit_r in S1.
      split.
      + rewrite src_cmp by st. rewrite !src_tns, !src_idm, S1. cbn [map rev]. rewrite obt_app, obt_single. cbn [obt]. now rewrite !ot_assoc.
      + rewrite tgt_cmp by st. exact I2.
  Qed.
  Lemma rcaps_types t : src C (rcaps t) = unit_ob C /\ tgt C (rcaps t) = ot C (ob t) (ob (rev (map (rot_atom 1) t))).
  Proof.
    induction t as [|a t [I1 I2]].
    - cbn. rewrite src_idm, tgt_idm, ot_unit_l. auto.
    - cbn [rcaps]. assert (B : box_ok (Cap a (rot_atom 1 a) true)) by (cbn; symmetry; apply rot_forth).
      assert (S1 := ari_src _ I _ B). assert (T1 := ari_tgt _ I _ B). cbn [b_dom b_cod b_end obt] in S1, T1. rewrite ot_unit_r in T1.
      split.
      + rewrite src_cmp by st. exact S1.
      + rewrite tgt_cmp by st. rewrite !tgt_tns, !tgt_idm, I2. cbn [map rev]. rewrite obt_app, obt_single. cbn [obt]. now rewrite !ot_assoc.
  Qed.
  Lemma rdual (R : rigid I) t : dual (ob (rev (map (rot_atom 1) t))) (ob t) (rcaps t) (rcups t).
  Proof.
    induction t as [|a t IH].
    - apply dual_unit.
    - assert (D : dual (obi I (rot_atom 1 a)) (obi I a) (ari I (Cap a (rot_atom 1 a) true)) (ari I (Cup (rot_atom 1 a) a true))).
      { destruct (R true (rot_atom 1 a)) as (S1 & S2). cbn [adj_of] in S1, S2. rewrite rot_forth in S1, S2.
        assert (BO : box_ok (Cap a (rot_atom 1 a) true)) by (cbn; symmetry; apply rot_forth). assert (BU : box_ok (Cup (rot_atom 1 a) a true)) by (cbn; reflexivity).
        constructor; try assumption.
        - rewrite ari_src by exact BO. reflexivity.
        - rewrite ari_tgt by exact BO. cbn. rewrite ot_unit_r. reflexivity.
        - rewrite ari_src by exact BU. cbn. rewrite ot_unit_r. reflexivity.
        - rewrite ari_tgt by exact BU. reflexivity. }
      assert (K := dual_tensor IH D).
      assert (OA : ob (rev (map (rot_atom 1) (a :: t))) = ot C (ob (rev (map (rot_atom 1) t))) (obi I (rot_atom 1 a))) by (cbn [map rev]; rewrite obt_app, obt_single; reflexivity).
      rewrite OA. change (ob (a :: t)) with (ot C (obi I a) (ob t)). apply (dual_heq K); reflexivity.
  Qed.
End Rev.

Section Den.
  Variable custom_ob : string -> res ty.
  Variable custom_ar : box -> res diagram.
  Variable ob : string -> ty.
  Hypothesis Hob : forall n, custom_ob n = Ok (ob n).
  Notation F_box := (F_box custom_ob custom_ar).
  Notation F_diag := (F_diag custom_ob custom_ar).
  Notation Fa := (Fa ob).
  Notation Fo := (Fo ob).
  Variable C : smc.
  Variable I : interp C.
  Notation obI := (obt C (obi I)).

  Lemma through_obt (o : atom -> Ob C) : (forall a, o a = obI (Fa a)) -> forall t, obt C o t = obI (Fo t).
  Proof. intros H t. induction t as [|a t IH]; [reflexivity|]. cbn [obt]. rewrite H, IH, Fo_cons, obt_app. reflexivity. Qed.

  Lemma den_image_layers (J : interp C) : through_types ob I J -> forall ls d c xs, chain d ls c -> All (fun x => box_ok (l_box x)) ls ->
    All (fun x => through_box custom_ob custom_ar I J (l_box x)) ls -> mapM (F_layer custom_ob custom_ar ob) ls = Ok xs ->
    chain (Fo d) (List.concat xs) (Fo c) /\ All (fun x => box_ok (l_box x)) (List.concat xs) /\
    heq C (den_layers I (Fo c) (List.concat xs)) (den_layers J c ls).
  Proof.
    intros HT ls. induction ls as [|x ls IH]; intros d c xs Hc Ho Hb E; cbn [mapM] in E.
    - injection E as <-. cbn in Hc |- *. subst d. repeat split; auto. rewrite (through_obt HT). reflexivity.
    - destruct x as [[l b] r]. cbn in Hc, Ho, Hb. destruct Hc as [-> Hc], Ho as [Ho1 Ho], Hb as [(y & Ey & [W1 W2] & Q) Hb].
      cbn [F_layer] in E. rewrite Ey in E. cbn [rmap bind] in E.
      destruct (mapM (F_layer custom_ob custom_ar ob) ls) as [ys|] eqn:Eys; [|discriminate]. cbn [bind] in E. injection E as <-.
      destruct (IH _ _ _ Hc Ho Hb eq_refl) as (C1 & A1 & Q1). destruct (F_box_ends Hob Ey) as [E1 E2].
      cbn [List.concat].
      assert (C2 : chain (Fo l ++ dom y ++ Fo r) (map (l_extend (Fo l) (Fo r)) (layers y)) (Fo l ++ cod y ++ Fo r)) by now apply chain_extend.
      assert (A2 : All (fun x => box_ok (l_box x)) (map (l_extend (Fo l) (Fo r)) (layers y))) by now apply All_extend.
      assert (EM : Fo (l ++ b_cod b ++ r) = Fo l ++ cod y ++ Fo r) by now rewrite !Fo_app, E2.
      rewrite EM in C1.
      split; [|split].
      + rewrite !Fo_app, <- E1. eapply chain_app_i; [exact C2|exact C1].
      + apply All_app. split; auto.
      + rewrite (den_layers_app I C2 C1 A2 A1). cbn [den_layers]. apply cmp_heq; [|exact Q1].
        rewrite (den_extend I (Fo l) (Fo r) W1 W2). cbn [den_layer]. rewrite !(through_obt HT).
        apply tns_heq; [reflexivity|]. apply tns_heq; [exact Q|reflexivity].
  Qed.
  Lemma den_image (J : interp C) d e : through_types ob I J -> wf d -> All (fun x => through_box custom_ob custom_ar I J (l_box x)) (layers d) ->
    F_diag d = Ok e -> wf e /\ heq C (den I e) (den J d).
  Proof.
    intros HT [W1 W2] Hb E. rewrite (F_diag_eq custom_ar Hob) in E by exact W1.
    destruct (mapM (F_layer custom_ob custom_ar ob) (layers d)) as [xs|] eqn:Ex; [|discriminate]. cbn [bind] in E. injection E as <-.
    destruct (den_image_layers HT W1 W2 Hb Ex) as (C1 & A1 & Q). split; [split; assumption|exact Q].
  Qed.

  (** ** the interpretation pulled back along the functor *)
  Fixpoint back (dag : bool) (b : box) : Hom C :=
    match b with
    | Dagg b' => back (negb dag) b'
    | Cap l r _ => if dag then epss I (Fa r) else rcaps I (Fa l)
    | Cup l r _ => if dag then etas I (Fa l) else rcups I (Fa r)
    | _ => idm C (unit_ob C)
    end.
  Definition pull_ari (b : box) : Hom C := match F_box b with Ok x => den I x | Err _ => back false b end.

  Hypothesis Htot : forall b, respects ob custom_ar b.
  Lemma tot_basics b : All (respects ob custom_ar) (basics b).
  Proof. induction b; cbn; auto. Qed.
  Lemma rev_ok_dec b : rev_ok ob b \/ ~ rev_ok ob b.
  Proof. induction b as [| |l r rv|l r rv| | | | |]; cbn; auto; destruct rv; auto; lia. Qed.
  Lemma long_two (t : ty) : ~ List.length t <= 1 -> exists a b u, t = a :: b :: u.
  Proof. destruct t as [|a [|b u]]; cbn; try lia. eauto. Qed.
  Lemma long_Fa a : ~ List.length (ob (fst a)) <= 1 -> exists x y u, Fa a = x :: y :: u.
  Proof. intro H. apply long_two. unfold FunctorSpec.Fa. now rewrite rot_length. Qed.
  Lemma not_rev_err b : box_ok b -> ~ rev_ok ob b -> exists e, F_box b = Err e.
  Proof.
    induction b as [| |l r rv|l r rv| | |b IH| |]; cbn [rev_ok box_ok]; intros Ho N; try tauto.
    - destruct rv; [|tauto]. destruct (long_Fa N) as (x & y & u & E).
      cbn [FunctorModel.F_box]. rewrite !(F_ty_eq Hob). cbn [bind]. rewrite !Fo_single, E, caps_reversed_compound. eexists; reflexivity.
    - destruct rv; [|tauto]. destruct (long_Fa N) as (x & y & u & E).
      cbn [FunctorModel.F_box]. rewrite !(F_ty_eq Hob). cbn [bind]. rewrite !Fo_single, E, cups_reversed_compound. eexists; reflexivity.
    - destruct (IH Ho N) as (e & E). cbn [FunctorModel.F_box]. rewrite E. eexists; reflexivity.
  Qed.
  Lemma image_wf b x : box_ok b -> F_box b = Ok x -> typed x (Fo (b_dom b)) (Fo (b_cod b)).
  Proof.
    intros Ho E. destruct (rev_ok_dec b) as [R|N].
    - destruct (box_typed Hob Ho R (tot_basics b)) as (x' & E' & T). congruence.
    - destruct (not_rev_err Ho N) as (e & E'). congruence.
  Qed.
  Lemma err_shape b e : box_ok b -> F_box b = Err e -> ~ rev_ok ob b.
  Proof. intros Ho E R. destruct (box_typed Hob Ho R (tot_basics b)) as (x & E' & _). congruence. Qed.
  Lemma obI_rot_m1 t : obI (rot (-1) t) = obI (adjl t).
  Proof. now rewrite adjl_rot. Qed.
  Lemma Fa_p1 a : Fa (rot_atom 1 a) = rev (map (rot_atom 1) (Fa a)).
  Proof. now rewrite Fa_rot, rot_p1. Qed.
  Lemma Fa_m1 a : Fa (rot_atom (-1) a) = rot (-1) (Fa a).
  Proof. apply Fa_rot. Qed.
  Lemma etas_types t : src C (etas I t) = unit_ob C /\ tgt C (etas I t) = ot C (obI t) (obI (rot (-1) t)).
  Proof. destruct (den_caps I t) as (d & _ & (W & T1 & T2) & <-). rewrite (den_src I W), (den_tgt I W), T1, T2, obt_app. auto. Qed.
  Lemma epss_types t : src C (epss I t) = ot C (obI (rot (-1) t)) (obI t) /\ tgt C (epss I t) = unit_ob C.
  Proof. destruct (den_cups I t) as (d & _ & (W & T1 & T2) & <-). rewrite (den_src I W), (den_tgt I W), T1, T2, obt_app. auto. Qed.
  Lemma back_types b : forall dag, box_ok b -> ~ rev_ok ob b ->
    src C (back dag b) = obI (Fo (if dag then b_cod b else b_dom b)) /\ tgt C (back dag b) = obI (Fo (if dag then b_dom b else b_cod b)).
  Proof.
    induction b as [| |l r rv|l r rv| | |b IH| |]; cbn [rev_ok box_ok]; intros dag Ho N; try tauto.
    - destruct rv; [|tauto]. subst l. cbn [back b_dom b_cod b_end].
      assert (E : Fo [rot_atom (-1) r; r] = rot (-1) (Fa r) ++ Fa r) by (change [rot_atom (-1) r; r] with ([rot_atom (-1) r] ++ [r]); now rewrite Fo_app, !Fo_single, Fa_m1).
      rewrite Fa_m1. destruct dag; rewrite E, obt_app; change (Fo []) with (@nil atom).
      + exact (epss_types (Fa r)).
      + destruct (rcaps_types I (rot (-1) (Fa r))) as [S1 S2]. rewrite <- rot_p1, rot_lr in S2. split; assumption.
    - destruct rv; [|tauto]. subst l. cbn [back b_dom b_cod b_end].
      assert (E : Fo [rot_atom 1 r; r] = rot 1 (Fa r) ++ Fa r) by (change [rot_atom 1 r; r] with ([rot_atom 1 r] ++ [r]); now rewrite Fo_app, !Fo_single, Fa_rot).
      rewrite Fa_rot. destruct dag; rewrite E, obt_app; change (Fo []) with (@nil atom).
      + destruct (etas_types (rot 1 (Fa r))) as [S1 S2]. rewrite rot_rl in S2. split; assumption.
      + destruct (rcups_types I (Fa r)) as [S1 S2]. rewrite <- rot_p1 in S1. split; assumption.
    - cbn [back b_dom b_cod]. destruct (IH (negb dag) Ho N) as [S1 S2]. destruct dag; cbn [negb] in *; auto.
  Qed.
  Lemma pull_types b : box_ok b -> src C (pull_ari b) = obI (Fo (b_dom b)) /\ tgt C (pull_ari b) = obI (Fo (b_cod b)).
  Proof.
    intro Ho. unfold pull_ari. destruct (F_box b) as [x|e] eqn:E.
    - destruct (image_wf Ho E) as (W & <- & <-). split; [apply den_src|apply den_tgt]; exact W.
    - exact (back_types false Ho (err_shape Ho E)).
  Qed.
  Definition pull : interp C.
  Proof.
    refine (@Interp C (fun a => obI (Fa a)) pull_ari _ _); intros b Ho; rewrite (through_obt (o := fun a => obI (Fa a))) by reflexivity; apply (pull_types Ho).
  Defined.
  Lemma pull_through b x : box_ok b -> F_box b = Ok x -> through_box custom_ob custom_ar I pull b.
  Proof.
    intros Ho E. exists x. split; [exact E|]. split; [apply (image_wf Ho E)|]. cbn [pull ari]. unfold pull_ari. rewrite E. reflexivity.
  Qed.
  (** cups and caps *)
  Lemma Fo_two l r : Fo [l; r] = Fa l ++ Fa r.
  Proof. change [l; r] with ([l] ++ [r]). now rewrite Fo_app, !Fo_single. Qed.
  Lemma den_one b : box_ok b -> heq C (den I (to_diag b)) (ari I b).
  Proof. apply den_box. Qed.
  Lemma pull_cap l r rv : box_ok (Cap l r rv) -> heq C (pull_ari (Cap l r rv)) (if rv then rcaps I (Fa l) else etas I (Fa l)).
  Proof.
    intro Ho. unfold pull_ari. cbn [box_ok] in Ho. cbn [FunctorModel.F_box]. rewrite !(F_ty_eq Hob). cbn [bind]. rewrite !Fo_single. destruct rv.
    - assert (E : Fa r = rot 1 (Fa l)) by (subst l; rewrite Fa_rot, rot_lr; reflexivity).
      destruct (Fa l) as [|x [|y u]] eqn:El; rewrite E.
      + rewrite rot_nil. change (caps [] [] true) with (Ok (id [])). rewrite (F_check_ok Hob); [reflexivity|reflexivity|].
        cbn [b_cod b_end]. rewrite Fo_two, El, E, rot_nil. reflexivity.
      + rewrite rot_single. assert (B : box_ok (Cap x (rot_atom 1 x) true)) by (cbn; symmetry; apply rot_forth).
        assert (K := caps_reversed_atomic (rot_atom 1 x)). rewrite rot_forth in K. rewrite K.
        rewrite (F_check_ok Hob); [|reflexivity|cbn [b_cod b_end]; rewrite Fo_two, El, E, rot_single; reflexivity].
        rewrite (den_one B). cbn [rcaps map rev]. rewrite tns_unit_l, tns_idm.
        symmetry. apply cmp_idm_r. rewrite ari_tgt by exact B. cbn. now rewrite ot_unit_r.
      + rewrite caps_reversed_compound. cbn [f_check bind back]. rewrite El. reflexivity.
    - assert (E : Fa r = rot (-1) (Fa l)) by (subst l; rewrite Fa_rot, rot_rl; reflexivity). rewrite E.
      destruct (den_caps I (Fa l)) as (d & -> & (_ & T1 & T2) & D).
      rewrite (F_check_ok Hob); [rewrite D; reflexivity|exact T1|]. cbn [b_cod b_end]. rewrite Fo_two, E. exact T2.
  Qed.
  Lemma pull_cup l r rv : box_ok (Cup l r rv) -> heq C (pull_ari (Cup l r rv)) (if rv then rcups I (Fa r) else epss I (Fa r)).
  Proof.
    intro Ho. unfold pull_ari. cbn [box_ok] in Ho. cbn [FunctorModel.F_box]. rewrite !(F_ty_eq Hob). cbn [bind]. rewrite !Fo_single. destruct rv.
    - assert (E : Fa l = rot 1 (Fa r)) by (subst l; apply Fa_rot).
      destruct (Fa r) as [|x [|y u]] eqn:El; rewrite E.
      + rewrite rot_nil. change (cups [] [] true) with (Ok (id [])). rewrite (F_check_ok Hob); [reflexivity| |reflexivity].
        cbn [b_dom b_end]. rewrite Fo_two, El, E, rot_nil. reflexivity.
      + rewrite rot_single. assert (B : box_ok (Cup (rot_atom 1 x) x true)) by reflexivity.
        rewrite cups_reversed_atomic.
        rewrite (F_check_ok Hob); [|cbn [b_dom b_end]; rewrite Fo_two, El, E, rot_single; reflexivity|reflexivity].
        rewrite (den_one B). cbn [rcups map rev]. change (obI []) with (unit_ob C). rewrite tns_unit_l, tns_unit_r.
        symmetry. apply cmp_idm_r. rewrite ari_tgt by exact B. reflexivity.
      + assert (L : List.length (rot 1 (x :: y :: u)) = S (S (List.length u))) by now rewrite rot_length.
        destruct (rot 1 (x :: y :: u)) as [|p [|q v]]; [discriminate|discriminate|].
        rewrite cups_reversed_compound. cbn [f_check bind back]. rewrite El. reflexivity.
    - assert (E : Fa l = rot (-1) (Fa r)) by (subst l; apply Fa_rot). rewrite E.
      destruct (den_cups I (Fa r)) as (d & -> & (_ & T1 & T2) & D).
      rewrite (F_check_ok Hob); [rewrite D; reflexivity| |exact T2]. cbn [b_dom b_end]. rewrite Fo_two, E. exact T1.
  Qed.
  Lemma pull_rigid (R : rigid I) : rigid pull.
  Proof.
    intros rv r. cbv zeta. cbn [pull ari obi].
    destruct rv; cbn [adj_of].
    - assert (B1 : box_ok (Cap (rot_atom (-1) r) r true)) by reflexivity.
      assert (B2 : box_ok (Cup r (rot_atom (-1) r) true)) by (cbn; symmetry; apply rot_back).
      rewrite (pull_cap B1), (pull_cup B2). assert (D := rdual R (Fa (rot_atom (-1) r))).
      rewrite <- Fa_p1, rot_back in D. split; [exact (sn1 D)|exact (sn2 D)].
    - assert (B1 : box_ok (Cap (rot_atom 1 r) r false)) by reflexivity.
      assert (B2 : box_ok (Cup r (rot_atom 1 r) false)) by (cbn; symmetry; apply rot_forth).
      rewrite (pull_cap B1), (pull_cup B2). assert (D := dual_at R (Fa (rot_atom 1 r))).
      rewrite <- Fa_m1, rot_forth in D. split; [exact (sn1 D)|exact (sn2 D)].
  Qed.
End Den.

(** ** the callback matters only on the boxes it is given *)
Section Ext.
  Variable custom_ob : string -> res ty.
  Variable ob : string -> ty.
  Hypothesis Hob : forall n, custom_ob n = Ok (ob n).
  Variables ca ca' : box -> res diagram.
  Lemma F_box_ext b : All (fun x => ca x = ca' x) (basics b) -> F_box custom_ob ca b = F_box custom_ob ca' b.
  Proof.
    induction b as [| | | | | |b IH| |]; intro H; try reflexivity.
    3: { cbn [FunctorModel.F_box]. now rewrite (IH H). }
    all: cbn [FunctorModel.F_box]; unfold F_basic; cbn [basics] in H; destruct (_ =? 0)%Z in *; destruct H as [-> _]; reflexivity.
  Qed.
  Lemma F_diag_ext d : wf d -> All (fun x => All (fun y => ca y = ca' y) (basics (l_box x))) (layers d) -> F_diag custom_ob ca d = F_diag custom_ob ca' d.
  Proof.
    intros [W _] H. rewrite !(F_diag_eq _ Hob) by exact W. f_equal.
    clear W. induction (layers d) as [|[[l b] r] ls IH]; [reflexivity|]. cbn in H. destruct H as [H1 H2].
    cbn [mapM]. rewrite (IH H2). cbn [F_layer]. now rewrite (F_box_ext H1).
  Qed.
End Ext.

Section Cut.
  Variable ob : string -> ty.
  Variable ca : box -> res diagram.
  Definition cut (L : list box) (x : box) : res diagram :=
    if existsb (box_eqb x) L then ca x else Ok (to_diag (Box "" (Fo ob (b_dom x)) (Fo ob (b_cod x)) 0)).
  Lemma cut_in L x : In x L -> cut L x = ca x.
  Proof.
    intro H. unfold cut. assert (E : existsb (box_eqb x) L = true) by (apply existsb_exists; exists x; split; [exact H|now apply box_eqb_iff]). now rewrite E.
  Qed.
  Lemma cut_respects L : All (respects ob ca) L -> forall x, respects ob (cut L) x.
  Proof.
    intros H x. unfold respects, cut. destruct (existsb (box_eqb x) L) eqn:E.
    - apply existsb_exists in E. destruct E as (y & Hy & E). apply box_eqb_iff in E. subst y.
      clear - H Hy. induction L as [|z L IH]; [destruct Hy|]. destruct H as [H1 H2]. destruct Hy as [->|Hy]; auto.
    - eexists; split; [reflexivity|]. now apply typed_to_diag.
  Qed.
End Cut.

Definition all_basics (ls : list layer) : list box := flat_map (fun x => basics (l_box x)) ls.
Lemma All_flat (P : box -> Prop) ls : All (fun x => All P (basics (l_box x))) ls -> All P (all_basics ls).
Proof. induction ls as [|x ls IH]; cbn; auto. intros [H1 H2]. apply All_app. auto. Qed.
Lemma All_of_In A (P : A -> Prop) l : (forall x, In x l -> P x) -> All P l.
Proof. induction l as [|x l IH]; cbn; auto. Qed.

Section Main.
  Variable custom_ob : string -> res ty.
  Variable ob : string -> ty.
  Hypothesis Hob : forall n, custom_ob n = Ok (ob n).
  Variable ca : box -> res diagram.
  Lemma F_all_ok d e : wf d -> F_diag custom_ob ca d = Ok e -> All (fun x => exists y, F_box custom_ob ca (l_box x) = Ok y) (layers d).
  Proof.
    intros [W _] E. rewrite (F_diag_eq _ Hob) in E by exact W. destruct (mapM _ (layers d)) as [xs|] eqn:Ex; [|discriminate]. clear E W.
    revert xs Ex. induction (layers d) as [|[[l b] r] ls IH]; intros xs Ex; cbn; auto. cbn [mapM F_layer] in Ex.
    destruct (F_box custom_ob ca b) as [y|] eqn:Ey; [|discriminate]. cbn [rmap bind] in Ex.
    destruct (mapM _ ls) as [ys|]; [|discriminate]. split; [now exists y|]. apply (IH ys). reflexivity.
  Qed.
  (** one interpretation for a list of boxes *)
  Lemma pulled C (I : interp C) (L : list box) : All (respects ob ca) L -> exists J, through_types ob I J /\ (rigid I -> rigid J) /\
    forall b y, box_ok b -> incl (basics b) L -> F_box custom_ob ca b = Ok y -> through_box custom_ob ca I J b.
  Proof.
    intro H. pose proof (cut_respects H) as T. exists (pull Hob I T). split; [intro a; reflexivity|]. split; [intro R; now apply pull_rigid|].
    intros b y Ho Hi E. assert (X : F_box custom_ob ca b = F_box custom_ob (cut ob ca L) b).
    { apply F_box_ext. apply All_of_In. intros x Hx. symmetry. apply cut_in. now apply Hi. }
    rewrite X in E. destruct (pull_through Hob I T Ho E) as (z & Ez & W & Q). exists z. rewrite X. auto.
  Qed.
  Lemma pulled_diag C (I : interp C) J (L : list box) d e : wf d -> through_types ob I J ->
    (forall b y, box_ok b -> incl (basics b) L -> F_box custom_ob ca b = Ok y -> through_box custom_ob ca I J b) ->
    incl (all_basics (layers d)) L -> F_diag custom_ob ca d = Ok e ->
    All (fun x => through_box custom_ob ca I J (l_box x)) (layers d) /\ wf e /\ heq C (den I e) (den J d).
  Proof.
    intros W HT HB HI E. assert (K : All (fun x => through_box custom_ob ca I J (l_box x)) (layers d)).
    { pose proof (F_all_ok W E) as X. destruct W as [_ W]. clear E. induction (layers d) as [|x ls IH]; cbn; auto.
      cbn in X, W. destruct X as [(y & Ey) X], W as [W1 W]. split.
      - apply (HB _ y); auto. intros z Hz. apply HI. unfold all_basics. cbn. apply in_or_app. now left.
      - apply IH; auto. intros z Hz. apply HI. unfold all_basics in *. cbn. apply in_or_app. now right. }
    split; [exact K|]. exact (den_image Hob HT W K E).
  Qed.
  Lemma interpretation C (I : interp C) d e : wf d -> respected ob ca d -> F_diag custom_ob ca d = Ok e ->
    exists J, through_types ob I J /\ All (fun x => through_box custom_ob ca I J (l_box x)) (layers d) /\ (rigid I -> rigid J) /\ heq C (den I e) (den J d).
  Proof.
    intros W H E. destruct (pulled I (All_flat H)) as (J & HT & HR & HB).
    destruct (pulled_diag W HT HB (fun x h => h) E) as (K & _ & Q). exists J. auto.
  Qed.
  Lemma equal_meaning d d' e e' : wf d -> wf d' -> respected ob ca d -> respected ob ca d' ->
    F_diag custom_ob ca d = Ok e -> F_diag custom_ob ca d' = Ok e' -> (same d d' -> same e e') /\ (same_rigid d d' -> same_rigid e e').
  Proof.
    intros W W' H H' E E'.
    assert (X : forall C (I : interp C), exists J, (rigid I -> rigid J) /\ heq C (den I e) (den J d) /\ heq C (den I e') (den J d')).
    { intros C I. assert (HL : All (respects ob ca) (all_basics (layers d) ++ all_basics (layers d'))) by (apply All_app; split; now apply All_flat).
      destruct (pulled I HL) as (J & HT & HR & HB). exists J. split; [exact HR|].
      split; [apply (pulled_diag W HT HB (fun x h => in_or_app _ _ _ (or_introl h)) E)|apply (pulled_diag W' HT HB (fun x h => in_or_app _ _ _ (or_intror h)) E')]. }
    split; intros HS C I; [|intro R]; destruct (X C I) as (J & HR & Q & Q'); rewrite Q, Q'; apply HS; auto.
  Qed.
  (** a diagram made of some of the boxes has an image too *)
  Lemma sub_image d d' e : wf d -> wf d' -> respected ob ca d -> incl (boxes d') (boxes d) -> F_diag custom_ob ca d = Ok e ->
    respected ob ca d' /\ exists e', F_diag custom_ob ca d' = Ok e'.
  Proof.
    intros W W' H Hi E. pose proof (F_all_ok W E) as X. unfold respected in *.
    assert (G : forall b, In b (boxes d) -> All (respects ob ca) (basics b) /\ exists y, F_box custom_ob ca b = Ok y).
    { unfold boxes. clear - H X. induction (layers d) as [|x ls IH]; cbn in *; [tauto|]. intros b [<-|Hb]; [tauto|]. apply IH; tauto. }
    assert (G' : All (fun x => All (respects ob ca) (basics (l_box x)) /\ exists y, F_box custom_ob ca (l_box x) = Ok y) (layers d')).
    { apply All_of_In. intros x Hx. apply G, Hi. unfold boxes. now apply in_map. }
    split. { clear - G'. induction (layers d') as [|x ls IH]; cbn in *; tauto. }
    destruct W' as [W1 _]. rewrite (F_diag_eq _ Hob) by exact W1.
    assert (M : exists xs, mapM (F_layer custom_ob ca ob) (layers d') = Ok xs).
    { clear - G'. induction (layers d') as [|[[l b] r] ls IH]; cbn in *; [eauto|]. destruct G' as [[_ (y & ->)] G'].
      destruct (IH G') as (xs & ->). cbn. eauto. }
    destruct M as (xs & ->). cbn. eauto.
  Qed.
End Main.
