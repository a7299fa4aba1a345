(** Turned diagrams (lemmas only). *)
From Verif Require Import PyBase PyFacts TyModel TyFacts DiagModel DiagSpec DiagFacts DiagRot DiagCups DiagMisc Cat CatFacts CatDual TurnSpec.
Set Implicit Arguments. Unset Strict Implicit.

Lemma odd_side rv : Z.odd (side rv) = true. Proof. destruct rv; reflexivity. Qed.
Lemma side_neg rv : (- side rv)%Z = side (negb rv). Proof. destruct rv; reflexivity. Qed.
Lemma rot_side rv s t : rot (side rv) (s ++ t) = rot (side rv) t ++ rot (side rv) s.
Proof. rewrite rot_app, odd_side. reflexivity. Qed.
Lemma rot_side_cons rv a t : rot (side rv) (a :: t) = rot (side rv) t ++ [rot_atom (side rv) a].
Proof. change (a :: t) with ([a] ++ t). rewrite rot_side, rot_single. reflexivity. Qed.
Lemma rot_side_back rv t : rot (side rv) (rot (side (negb rv)) t) = t.
Proof. destruct rv; [apply rot_lr|apply rot_rl]. Qed.
Lemma rot_side_fwd rv t : rot (side (negb rv)) (rot (side rv) t) = t.
Proof. destruct rv; [apply rot_rl|apply rot_lr]. Qed.

Section Turn.
  Variable C : smc.
  Variable I : interp C.
  Notation ob := (obt C (obi I)).
  Notation "f == g" := (heq C f g) (at level 70).
  Notation "f ;; g" := (cmp C f g) (at level 50, left associativity).
  Notation "f ⊗ g" := (tns C f g) (at level 40, left associativity).
  Notation "1_ t" := (idm C (obt C (obi I) t)) (at level 0, t at level 0).
  Notation U := (unit_ob C).
  Notation nc := (nested_cups I).

  Lemma cup_ok rv a : box_ok (Cup (rot_atom (side rv) a) a rv). Proof. destruct rv; reflexivity. Qed.
  Lemma cup_ty rv a : src C (ari I (Cup (rot_atom (side rv) a) a rv)) = ot C (obi I (rot_atom (side rv) a)) (obi I a) /\ tgt C (ari I (Cup (rot_atom (side rv) a) a rv)) = U.
  Proof. rewrite ari_src, ari_tgt by apply cup_ok. cbn. rewrite ot_unit_r. split; reflexivity. Qed.
  Lemma nc_ty rv t : src C (nc rv t) = ot C (ob (rot (side rv) t)) (ob t) /\ tgt C (nc rv t) = U.
  Proof.
    induction t as [|a t (S & T)]; cbn [nested_cups].
    - rewrite rot_nil. cbn. rewrite src_idm, tgt_idm, ot_unit_l. split; reflexivity.
    - destruct (cup_ty rv a) as (S1 & T1). rewrite rot_side_cons, obt_app, obt_single. change (ob (a :: t)) with (ot C (obi I a) (ob t)). split; st.
  Qed.
  Lemma nc_app rv s t : nc rv (s ++ t) == (1_ (rot (side rv) t) ⊗ (nc rv s ⊗ 1_ t)) ;; nc rv t.
  Proof.
    induction s as [|a s IH]; cbn [app nested_cups].
    - destruct (nc_ty rv t) as (S & T). rewrite tns_unit_l, tns_idm. symmetry. apply cmp_idm_l. st.
    - destruct (nc_ty rv t) as (S & T). destruct (nc_ty rv s) as (S2 & T2). destruct (cup_ty rv a) as (S1 & T1). rewrite IH. rewrite <- cmp_assoc by (rewrite ?rot_side, ?obt_app; st).
      apply cmp_heq; [|reflexivity]. rewrite rot_side, !obt_app, <- !tns_idm.
      set (c := ari I (Cup (rot_atom (side rv) a) a rv)) in *. rewrite (wr (ob t)) by st. rewrite (wl (ob (rot (side rv) t))) by st. rewrite !tns_assoc. reflexivity.
  Qed.

  Record sl (rv : bool) (s t s' t' : ty) (f f' : Hom C) : Prop := {
    l_s : s' = rot (side rv) s; l_t : t' = rot (side rv) t;
    f_s : src C f = ob s; f_t : tgt C f = ob t; f_s' : src C f' = ob t'; f_t' : tgt C f' = ob s';
    slideq : (f' ⊗ 1_ s) ;; nc rv s == (1_ t' ⊗ f) ;; nc rv t }.
  Lemma sl_id rv s s' : s' = rot (side rv) s -> sl rv s s s' s' (1_ s) (1_ s').
  Proof. intros ->. constructor; try reflexivity; try apply src_idm; try apply tgt_idm. Qed.
  Lemma sl_heq rv s t s' t' f f' g g' : sl rv s t s' t' f f' -> f == g -> f' == g' -> sl rv s t s' t' g g'.
  Proof.
    intros [A1 A2 A3 A4 A5 A6 A7] E E'. constructor; auto.
    - now rewrite <- (heq_src _ _ _ E).
    - now rewrite <- (heq_tgt _ _ _ E).
    - now rewrite <- (heq_src _ _ _ E').
    - now rewrite <- (heq_tgt _ _ _ E').
    - rewrite <- E, <- E'. exact A7.
  Qed.
  Lemma sl_cmp rv r s t r' s' t' f f' g g' : sl rv r s r' s' f f' -> sl rv s t s' t' g g' -> sl rv r t r' t' (f ;; g) (g' ;; f').
  Proof.
    intros [A1 A2 A3 A4 A5 A6 A7] [B1 B2 B3 B4 B5 B6 B7].
    destruct (nc_ty rv r) as (Sr & Tr). destruct (nc_ty rv s) as (Ss & Ts). destruct (nc_ty rv t) as (St & Tt). rewrite <- A1 in Sr. rewrite <- A2 in Ss. rewrite <- B2 in St.
    constructor; auto; try solve [st].
    rewrite wr, wl by st. rewrite cmp_assoc by st. rewrite A7. rewrite <- cmp_assoc by st. rewrite ex1 by st. rewrite <- (ex2 (f := g') (g := f) (a := ob t') (b := ob s)) by st.
    rewrite cmp_assoc by st. rewrite B7. symmetry. apply cmp_assoc; st.
  Qed.
  Lemma sl_left rv l l' s t s' t' f f' : l' = rot (side rv) l -> sl rv s t s' t' f f' -> sl rv (l ++ s) (l ++ t) (s' ++ l') (t' ++ l') (1_ l ⊗ f) (f' ⊗ 1_ l').
  Proof.
    intros El [A1 A2 A3 A4 A5 A6 A7].
    destruct (nc_ty rv l) as (Sl & Tl). destruct (nc_ty rv s) as (Ss & Ts). destruct (nc_ty rv t) as (St & Tt). rewrite <- A1 in Ss. rewrite <- A2 in St. rewrite <- El in Sl.
    constructor; rewrite ?rot_side, ?obt_app; try congruence; try solve [st].
    rewrite !nc_app, <- A1, <- A2.
    assert (E1 : (f' ⊗ 1_ l') ⊗ idm C (ot C (ob l) (ob s)) == f' ⊗ 1_ (l' ++ l ++ s)) by (rewrite !obt_app, <- !tns_idm, !tns_assoc; reflexivity).
    assert (E2 : idm C (ot C (ob t') (ob l')) ⊗ (1_ l ⊗ f) == 1_ t' ⊗ (1_ (l' ++ l) ⊗ f)) by (rewrite !obt_app, <- !tns_idm, !tns_assoc; reflexivity).
    rewrite E1, E2. rewrite <- !cmp_assoc by (rewrite ?obt_app; st).
    rewrite ex1 by (rewrite ?obt_app; st). rewrite <- (ex2 (f := f') (g := nc rv l ⊗ 1_ s) (a := ob t') (b := ob s)) by (rewrite ?obt_app; st). rewrite cmp_assoc by st. rewrite A7.
    rewrite <- (wl (ob t')) by (rewrite ?obt_app; st). rewrite ex2 by (rewrite ?obt_app; st). rewrite <- cmp_assoc by st. apply cmp_heq; [|reflexivity]. rewrite <- wl by (rewrite ?obt_app; st). apply tns_heq; [reflexivity|].
    rewrite <- (ex1 (f := nc rv l) (g := f) (a := U) (b := ob s)) by st. rewrite tns_unit_l. reflexivity.
  Qed.
  Lemma sl_right rv r r' s t s' t' f f' : r' = rot (side rv) r -> sl rv s t s' t' f f' -> sl rv (s ++ r) (t ++ r) (r' ++ s') (r' ++ t') (f ⊗ 1_ r) (1_ r' ⊗ f').
  Proof.
    intros El [A1 A2 A3 A4 A5 A6 A7].
    destruct (nc_ty rv r) as (Sl & Tl). destruct (nc_ty rv s) as (Ss & Ts). destruct (nc_ty rv t) as (St & Tt). rewrite <- A1 in Ss. rewrite <- A2 in St. rewrite <- El in Sl.
    constructor; rewrite ?rot_side, ?obt_app; try congruence; try solve [st].
    rewrite !nc_app, <- El. rewrite <- !cmp_assoc by (rewrite ?obt_app; st). apply cmp_heq; [|reflexivity].
    rewrite <- !tns_idm. rewrite !tns_assoc. rewrite <- (tns_assoc C f'), <- (tns_assoc C (1_ t')). rewrite <- !wl by st. rewrite <- !wr by st. rewrite A7. reflexivity.
  Qed.

  (** for the boxes of some class *)
  Variable P : box -> Prop.
  Hypothesis T : forall rv b, P b -> box_ok b ->
    slides I rv (b_dom b) (b_cod b) (ari I b) (ari I (b_rotate (side rv) (b_dagger b))) /\
    slides I rv (rot (- side rv) (b_cod b)) (rot (- side rv) (b_dom b)) (ari I (b_rotate (- side rv) (b_dagger b))) (ari I b).
  Lemma sl_box rv b : P b -> box_ok b -> sl rv (b_dom b) (b_cod b) (rot (side rv) (b_dom b)) (rot (side rv) (b_cod b)) (ari I b) (ari I (b_rotate (side rv) (b_dagger b))).
  Proof.
    intros Pb O. assert (O' : box_ok (b_rotate (side rv) (b_dagger b))) by (apply box_ok_rotate, box_ok_dagger; exact O). constructor; try reflexivity.
    - apply ari_src. exact O.
    - apply ari_tgt. exact O.
    - rewrite ari_src by exact O'. rewrite b_dom_rotate, b_dom_dagger. reflexivity.
    - rewrite ari_tgt by exact O'. rewrite b_cod_rotate, b_cod_dagger. reflexivity.
    - exact (proj1 (T rv Pb O)).
  Qed.
  Lemma sl_box' rv b : P b -> box_ok b -> sl (negb rv) (rot (side rv) (b_cod b)) (rot (side rv) (b_dom b)) (b_cod b) (b_dom b) (ari I (b_rotate (side rv) (b_dagger b))) (ari I b).
  Proof.
    intros Pb O. assert (O' : box_ok (b_rotate (side rv) (b_dagger b))) by (apply box_ok_rotate, box_ok_dagger; exact O). assert (K := proj2 (T (negb rv) Pb O)). unfold slides in K. rewrite side_neg, Bool.negb_involutive in K. constructor.
    - now rewrite rot_side_fwd.
    - now rewrite rot_side_fwd.
    - rewrite ari_src by exact O'. rewrite b_dom_rotate, b_dom_dagger. reflexivity.
    - rewrite ari_tgt by exact O'. rewrite b_cod_rotate, b_cod_dagger. reflexivity.
    - apply ari_src. exact O.
    - apply ari_tgt. exact O.
    - rewrite rot_side_fwd in K. exact K.
  Qed.

  (** whole diagrams *)
  Lemma den_layer_turn rv l b r : den_layer I (l_rotate (side rv) (l_dagger (l, b, r))) = 1_ (rot (side rv) r) ⊗ (ari I (b_rotate (side rv) (b_dagger b)) ⊗ 1_ (rot (side rv) l)).
  Proof. unfold l_rotate, rot_layer_with. cbn [l_dagger]. rewrite odd_side. reflexivity. Qed.
  Lemma sl_layer rv x : P (l_box x) -> box_ok (l_box x) -> sl rv (l_dom x) (l_cod x) (rot (side rv) (l_dom x)) (rot (side rv) (l_cod x)) (den_layer I x) (den_layer I (l_rotate (side rv) (l_dagger x))).
  Proof.
    destruct x as [[l b] r]. cbn [l_box l_dom l_cod]. intros Pb O. rewrite den_layer_turn. cbn [den_layer]. rewrite !rot_side. rewrite <- !app_assoc.
    assert (K := sl_left (eq_refl (rot (side rv) l)) (sl_right (eq_refl (rot (side rv) r)) (sl_box rv Pb O))). rewrite <- !app_assoc in K. eapply sl_heq; [exact K|reflexivity|apply tns_assoc].
  Qed.
  Lemma sl_layer' rv x : P (l_box x) -> box_ok (l_box x) -> sl (negb rv) (rot (side rv) (l_cod x)) (rot (side rv) (l_dom x)) (l_cod x) (l_dom x) (den_layer I (l_rotate (side rv) (l_dagger x))) (den_layer I x).
  Proof.
    destruct x as [[l b] r]. cbn [l_box l_dom l_cod]. intros Pb O. rewrite den_layer_turn. cbn [den_layer]. rewrite !rot_side. rewrite <- !app_assoc.
    assert (B : forall t, t = rot (side (negb rv)) (rot (side rv) t)) by (intro t; now rewrite rot_side_fwd).
    assert (K := sl_left (B r) (sl_right (B l) (sl_box' rv Pb O))). rewrite <- !app_assoc in K. eapply sl_heq; [exact K|reflexivity|apply tns_assoc].
  Qed.
  
  Lemma turned_layers rv ls : forall s t, chain s ls t -> All (fun x => box_ok (l_box x)) ls ->
    chain (rot (side rv) t) (map (l_rotate (side rv)) (map l_dagger (rev ls))) (rot (side rv) s) /\ All (fun x => box_ok (l_box x)) (map (l_rotate (side rv)) (map l_dagger (rev ls))).
  Proof.
    intros s t Ch A. split; [apply chain_rotate, chain_dagger, Ch|]. rewrite map_map. apply All_rev in A. induction (rev ls) as [|x k IH]; cbn in *; [exact Logic.I|]. destruct A as (A1 & A2). split; [|apply IH, A2].
    rewrite l_box_rotate, l_box_dagger. apply box_ok_rotate, box_ok_dagger, A1.
  Qed.
  Lemma sl_layers rv ls : forall s t, chain s ls t -> All (fun x => box_ok (l_box x)) ls -> All (fun x => P (l_box x)) ls ->
    sl rv s t (rot (side rv) s) (rot (side rv) t) (den_layers I t ls) (den_layers I (rot (side rv) s) (map (l_rotate (side rv)) (map l_dagger (rev ls)))) /\
    sl (negb rv) (rot (side rv) t) (rot (side rv) s) t s (den_layers I (rot (side rv) s) (map (l_rotate (side rv)) (map l_dagger (rev ls)))) (den_layers I t ls).
  Proof.
    induction ls as [|x ls IH]; intros s t Ch A AP.
    - cbn in Ch. subst t. cbn [rev map den_layers]. split; apply sl_id; [reflexivity|]. now rewrite rot_side_fwd.
    - pose proof Ch as (E & Ch'). subst s. pose proof A as (Ax & A'). pose proof AP as (Px & AP'). destruct (IH _ _ Ch' A' AP') as (K1 & K2). destruct (turned_layers rv Ch' A') as (W1 & W2).
      cbn [rev]. rewrite !map_app. cbn [map].
      assert (Cx : chain (rot (side rv) (l_cod x)) [l_rotate (side rv) (l_dagger x)] (rot (side rv) (l_dom x))).
      { cbn. rewrite l_dom_rotate, l_cod_rotate, l_dom_dagger, l_cod_dagger. split; reflexivity. }
      assert (Bx : All (fun x => box_ok (l_box x)) [l_rotate (side rv) (l_dagger x)]) by (cbn; split; [|exact Logic.I]; rewrite l_box_rotate, l_box_dagger; apply box_ok_rotate, box_ok_dagger, Ax).
      assert (D := den_layers_app I W1 Cx W2 Bx).
      assert (D1 : den_layers I (rot (side rv) (l_dom x)) [l_rotate (side rv) (l_dagger x)] == den_layer I (l_rotate (side rv) (l_dagger x))).
      { cbn [den_layers]. apply cmp_idm_r. rewrite tgt_layer by apply Bx. rewrite l_cod_rotate, l_cod_dagger. reflexivity. }
      rewrite D1 in D. cbn [den_layers]. split.
      + eapply sl_heq; [exact (sl_cmp (sl_layer rv Px Ax) K1)|reflexivity|symmetry; exact D].
      + eapply sl_heq; [exact (sl_cmp K2 (sl_layer' rv Px Ax))|symmetry; exact D|reflexivity].
  Qed.
  Definition turned (rv : bool) (d : diagram) : diagram := d_rotate (side rv) (d_dagger d).
  Lemma turned_typed rv d s t : typed d s t -> typed (turned rv d) (rot (side rv) t) (rot (side rv) s).
  Proof. intros (W & D & Cd). split; [now apply wf_rotate, wf_dagger|]. unfold turned. rewrite d_dagger_eq by auto. cbn. now rewrite D, Cd. Qed.
  Lemma sl_diag rv d s t : Forall P (boxes d) -> typed d s t -> sl rv s t (rot (side rv) s) (rot (side rv) t) (den I d) (den I (turned rv d)) /\ sl (negb rv) (rot (side rv) t) (rot (side rv) s) t s (den I (turned rv d)) (den I d).
  Proof.
    intros FP (W & <- & <-). unfold turned. rewrite d_dagger_eq by auto. unfold den. cbn [d_rotate cod layers]. apply sl_layers; try apply W.
    unfold boxes in FP. rewrite Forall_map in FP. clear -FP. induction FP; cbn; auto.
  Qed.
  (** a state on one leg of the cups *)
  Lemma state_right rv d t : Forall P (boxes d) -> typed d [] t -> den I (turned rv d) == (1_ (rot (side rv) t) ⊗ den I d) ;; nested_cups I rv t.
  Proof.
    intros FP Td. destruct (sl_diag rv FP Td) as (K & _). rewrite <- (slideq K). cbn [nested_cups]. change (ob []) with U. rewrite tns_unit_r, cmp_idm_r; [reflexivity|]. rewrite (f_t' K), rot_nil. reflexivity.
  Qed.
  Lemma state_left rv d t : Forall P (boxes d) -> typed d [] t -> den I (turned rv d) == (den I d ⊗ 1_ (rot (side rv) t)) ;; nested_cups I (negb rv) (rot (side rv) t).
  Proof.
    intros FP Td. destruct (sl_diag rv FP Td) as (_ & K). rewrite (slideq K). rewrite rot_nil. cbn [nested_cups]. change (ob []) with U. rewrite tns_unit_l, cmp_idm_r; [reflexivity|]. rewrite (f_t K), rot_nil. reflexivity.
  Qed.
End Turn.
