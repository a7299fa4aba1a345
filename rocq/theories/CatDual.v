(** Duals in strict monoidal categories, and the denotation of cups, caps, transposes and curried diagrams (lemmas only). *)
From Verif Require Import PyBase PyFacts TyModel TyFacts DiagModel DiagSpec DiagFacts DiagRot DiagPerm DiagCups DiagMisc Cat CatFacts.
Set Implicit Arguments. Unset Strict Implicit.

  Ltac st1 := match goal with
    | |- context [src _ (tns _ _ _)] => rewrite src_tns | |- context [tgt _ (tns _ _ _)] => rewrite tgt_tns
    | |- context [src _ (idm _ _)] => rewrite src_idm | |- context [tgt _ (idm _ _)] => rewrite tgt_idm
    | H : src _ ?x = _ |- context [src _ ?x] => rewrite H | H : tgt _ ?x = _ |- context [tgt _ ?x] => rewrite H
    end.
  Ltac st := repeat st1; repeat (first [rewrite src_cmp by st|rewrite tgt_cmp by st]; repeat st1); rewrite ?ot_assoc, ?ot_unit_l, ?ot_unit_r, ?ot_assoc; try reflexivity; try congruence.

Section Dual.
  Variable C : smc.
  Notation "f == g" := (heq C f g) (at level 70).
  Notation "f ;; g" := (cmp C f g) (at level 50, left associativity).
  Notation "f ⊗ g" := (tns C f g) (at level 40, left associativity).
  Notation "a ⊠ b" := (ot C a b) (at level 40, left associativity).
  Notation "1_ t" := (idm C t) (at level 0, t at level 0).
  Notation U := (unit_ob C).
  Lemma ex1 f g a b : a = tgt C f -> b = src C g -> (f ⊗ 1_ b) ;; (1_ a ⊗ g) == f ⊗ g.
  Proof. intros -> ->. rewrite interchange_law by st. rewrite cmp_idm_r, cmp_idm_l by reflexivity. reflexivity. Qed.
  Lemma ex2 f g a b : a = src C f -> b = tgt C g -> (1_ a ⊗ g) ;; (f ⊗ 1_ b) == f ⊗ g.
  Proof. intros -> ->. rewrite interchange_law by st. rewrite cmp_idm_r, cmp_idm_l by reflexivity. reflexivity. Qed.
  Lemma wl a f g : tgt C f = src C g -> 1_ a ⊗ (f ;; g) == (1_ a ⊗ f) ;; (1_ a ⊗ g).
  Proof. intro H. rewrite interchange_law by (st; exact H). rewrite cmp_idm_l by st. reflexivity. Qed.
  Lemma wr a f g : tgt C f = src C g -> (f ;; g) ⊗ 1_ a == (f ⊗ 1_ a) ;; (g ⊗ 1_ a).
  Proof. intro H. rewrite interchange_law by (st; exact H). rewrite cmp_idm_l by st. reflexivity. Qed.

  (** [a'] is the right dual of [a] *)
  Record dual (a a' : Ob C) (eta eps : Hom C) : Prop := {
    h_s : src C eta = U; h_t : tgt C eta = a' ⊠ a; e_s : src C eps = a ⊠ a'; e_t : tgt C eps = U;
    sn1 : (1_ a ⊗ eta) ;; (eps ⊗ 1_ a) == 1_ a;
    sn2 : (eta ⊗ 1_ a') ;; (1_ a' ⊗ eps) == 1_ a' }.

  Section Curry.
    Variables (a a' : Ob C) (eta eps : Hom C).
    Hypothesis D : dual a a' eta eps.
    Let hs := h_s D. Let ht := h_t D. Let es := e_s D. Let et := e_t D.
    Definition cur_l (c : Ob C) (f : Hom C) : Hom C := (1_ c ⊗ eta) ;; (f ⊗ 1_ a).
    Definition unc_l (t : Ob C) (g : Hom C) : Hom C := (g ⊗ 1_ a') ;; (1_ t ⊗ eps).
    Definition cur_r (c : Ob C) (f : Hom C) : Hom C := (eta ⊗ 1_ c) ;; (1_ a' ⊗ f).
    Definition unc_r (t : Ob C) (g : Hom C) : Hom C := (1_ a ⊗ g) ;; (eps ⊗ 1_ t).
    Lemma cur_l_ty c t f : src C f = c ⊠ a' -> tgt C f = t -> src C (cur_l c f) = c /\ tgt C (cur_l c f) = t ⊠ a.
    Proof. intros S T. unfold cur_l. split; st. Qed.
    Lemma unc_l_ty c t g : src C g = c -> tgt C g = t ⊠ a -> src C (unc_l t g) = c ⊠ a' /\ tgt C (unc_l t g) = t.
    Proof. intros S T. unfold unc_l. split; st. Qed.
    Lemma cur_r_ty c t f : src C f = a ⊠ c -> tgt C f = t -> src C (cur_r c f) = c /\ tgt C (cur_r c f) = a' ⊠ t.
    Proof. intros S T. unfold cur_r. split; st. Qed.
    Lemma unc_r_ty c t g : src C g = c -> tgt C g = a' ⊠ t -> src C (unc_r t g) = a ⊠ c /\ tgt C (unc_r t g) = t.
    Proof. intros S T. unfold unc_r. split; st. Qed.
    Lemma unc_cur_l c t f : src C f = c ⊠ a' -> tgt C f = t -> unc_l t (cur_l c f) == f.
    Proof.
      intros S T. unfold unc_l, cur_l. rewrite wr by st. rewrite cmp_assoc by st.
      assert (E : (f ⊗ 1_ a ⊗ 1_ a') ;; (1_ t ⊗ eps) == (1_ (c ⊠ a') ⊗ eps) ;; f).
      { rewrite tns_assoc, tns_idm. rewrite ex1 by st. rewrite <- (ex2 (f := f) (g := eps) (a := c ⊠ a') (b := U)) by st. rewrite tns_unit_r. reflexivity. }
      rewrite E. rewrite <- cmp_assoc by st. rewrite <- tns_idm, !tns_assoc. rewrite <- wl by st. rewrite (sn2 D), tns_idm. apply cmp_idm_l. st.
    Qed.
    Lemma cur_unc_l c t g : src C g = c -> tgt C g = t ⊠ a -> cur_l c (unc_l t g) == g.
    Proof.
      intros S T. unfold unc_l, cur_l. rewrite wr by st. rewrite <- cmp_assoc by st.
      assert (E : (1_ c ⊗ eta) ;; (g ⊗ 1_ a' ⊗ 1_ a) == g ;; (1_ (t ⊠ a) ⊗ eta)).
      { rewrite tns_assoc, tns_idm. rewrite ex2 by st. rewrite <- (ex1 (f := g) (g := eta) (a := t ⊠ a) (b := U)) by st. rewrite tns_unit_r. reflexivity. }
      rewrite E. rewrite cmp_assoc by st. rewrite <- tns_idm, !tns_assoc. rewrite <- wl by st. rewrite (sn1 D), tns_idm. apply cmp_idm_r. st.
    Qed.
    Lemma unc_cur_r c t f : src C f = a ⊠ c -> tgt C f = t -> unc_r t (cur_r c f) == f.
    Proof.
      intros S T. unfold unc_r, cur_r. rewrite wl by st. rewrite cmp_assoc by st.
      assert (E : (1_ a ⊗ (1_ a' ⊗ f)) ;; (eps ⊗ 1_ t) == (eps ⊗ 1_ (a ⊠ c)) ;; f).
      { rewrite <- tns_assoc, tns_idm. rewrite ex2 by st. rewrite <- (ex1 (f := eps) (g := f) (a := U) (b := a ⊠ c)) by st. rewrite tns_unit_l. reflexivity. }
      rewrite E. rewrite <- cmp_assoc by st. rewrite <- tns_idm, <- !tns_assoc. rewrite <- wr by st. rewrite (sn1 D), tns_idm. apply cmp_idm_l. st.
    Qed.
    Lemma cur_unc_r c t g : src C g = c -> tgt C g = a' ⊠ t -> cur_r c (unc_r t g) == g.
    Proof.
      intros S T. unfold unc_r, cur_r. rewrite wl by st. rewrite <- cmp_assoc by st.
      assert (E : (eta ⊗ 1_ c) ;; (1_ a' ⊗ (1_ a ⊗ g)) == g ;; (eta ⊗ 1_ (a' ⊠ t))).
      { rewrite <- tns_assoc, tns_idm. rewrite ex1 by st. rewrite <- (ex2 (f := eta) (g := g) (a := U) (b := a' ⊠ t)) by st. rewrite tns_unit_l. reflexivity. }
      rewrite E. rewrite cmp_assoc by st. rewrite <- tns_idm, <- !tns_assoc. rewrite <- wr by st. rewrite (sn2 D), tns_idm. apply cmp_idm_r. st.
    Qed.
  End Curry.

  Lemma dual_unit : dual U U (1_ U) (1_ U).
  Proof. constructor; st; rewrite tns_idm, ot_unit_l, cmp_idm_l by st; reflexivity. Qed.
  Lemma dual_tensor a a' eta eps b b' eta' eps' : dual a a' eta eps -> dual b b' eta' eps' ->
    dual (a ⊠ b) (b' ⊠ a') (eta' ;; (1_ b' ⊗ (eta ⊗ 1_ b))) ((1_ a ⊗ (eps' ⊗ 1_ a')) ;; eps).
  Proof.
    intros [hs ht es et s1 s2] [hs' ht' es' et' s1' s2']. constructor; try solve [st].
    - assert (E : (1_ (a ⊠ b) ⊗ (1_ b' ⊗ (eta ⊗ 1_ b))) ;; ((1_ a ⊗ (eps' ⊗ 1_ a')) ⊗ 1_ (a ⊠ b)) == (1_ a ⊗ (eps' ⊗ 1_ b)) ;; (1_ a ⊗ (eta ⊗ 1_ b))).
      { assert (E1 : 1_ (a ⊠ b) ⊗ (1_ b' ⊗ (eta ⊗ 1_ b)) == 1_ a ⊗ (1_ (b ⊠ b') ⊗ (eta ⊗ 1_ b))) by (rewrite <- !tns_idm, !tns_assoc; reflexivity).
        assert (E2 : (1_ a ⊗ (eps' ⊗ 1_ a')) ⊗ 1_ (a ⊠ b) == 1_ a ⊗ (eps' ⊗ 1_ (a' ⊠ (a ⊠ b)))) by (rewrite <- !tns_idm, !tns_assoc; reflexivity).
        rewrite E1, E2. rewrite <- !wl by st. apply tns_heq; [reflexivity|]. rewrite ex2 by st. rewrite <- (ex1 (f := eps') (g := eta ⊗ 1_ b) (a := U) (b := b)) by st. rewrite tns_unit_l. reflexivity. }
      rewrite wl, wr by st. rewrite cmp_assoc by st. rewrite <- (@cmp_assoc C _ _ (eps ⊗ _)) by st. rewrite E. rewrite <- cmp_assoc by st. rewrite <- cmp_assoc by st.
      assert (E3 : (1_ (a ⊠ b) ⊗ eta') ;; (1_ a ⊗ (eps' ⊗ 1_ b)) == 1_ (a ⊠ b)).
      { rewrite <- (tns_idm C a b), tns_assoc. rewrite <- wl by st. rewrite s1'. reflexivity. }
      rewrite E3. rewrite cmp_idm_l by st. rewrite <- (tns_idm C a b), <- !tns_assoc. rewrite <- wr by st. rewrite s1. reflexivity.
    - assert (E : ((1_ b' ⊗ (eta ⊗ 1_ b)) ⊗ 1_ (b' ⊠ a')) ;; (1_ (b' ⊠ a') ⊗ (1_ a ⊗ (eps' ⊗ 1_ a'))) == (1_ b' ⊗ (eps' ⊗ 1_ a')) ;; (1_ b' ⊗ (eta ⊗ 1_ a'))).
      { assert (E1 : (1_ b' ⊗ (eta ⊗ 1_ b)) ⊗ 1_ (b' ⊠ a') == 1_ b' ⊗ (eta ⊗ 1_ (b ⊠ (b' ⊠ a')))) by (rewrite <- !tns_idm, !tns_assoc; reflexivity).
        assert (E2 : 1_ (b' ⊠ a') ⊗ (1_ a ⊗ (eps' ⊗ 1_ a')) == 1_ b' ⊗ (1_ (a' ⊠ a) ⊗ (eps' ⊗ 1_ a'))) by (rewrite <- !tns_idm, !tns_assoc; reflexivity).
        rewrite E1, E2. rewrite <- !wl by st. apply tns_heq; [reflexivity|]. rewrite ex1 by st. rewrite <- (ex2 (f := eta) (g := eps' ⊗ 1_ a') (a := U) (b := a')) by st. rewrite tns_unit_l. reflexivity. }
      rewrite wl, wr by st. rewrite cmp_assoc by st. rewrite <- (@cmp_assoc C _ _ (1_ (b' ⊠ a') ⊗ eps)) by st. rewrite E. rewrite <- cmp_assoc by st. rewrite <- cmp_assoc by st.
      assert (E3 : (eta' ⊗ 1_ (b' ⊠ a')) ;; (1_ b' ⊗ (eps' ⊗ 1_ a')) == 1_ (b' ⊠ a')).
      { rewrite <- (tns_idm C b' a'), <- !tns_assoc. rewrite <- wr by st. rewrite s2'. reflexivity. }
      rewrite E3. rewrite cmp_idm_l by st. rewrite <- (tns_idm C b' a'), tns_assoc. rewrite <- wl by st. rewrite s2. reflexivity.
  Qed.
  Lemma dual_heq a a' eta eps eta' eps' : dual a a' eta eps -> eta' == eta -> eps' == eps -> dual a a' eta' eps'.
  Proof.
    intros [hs ht es et s1 s2] E1 E2. constructor.
    - rewrite (heq_src _ _ _ E1). exact hs.
    - rewrite (heq_tgt _ _ _ E1). exact ht.
    - rewrite (heq_src _ _ _ E2). exact es.
    - rewrite (heq_tgt _ _ _ E2). exact et.
    - rewrite E1, E2. exact s1.
    - rewrite E1, E2. exact s2.
  Qed.
End Dual.

Section Den.
  Variable C : smc.
  Variable I : interp C.
  Hypothesis R : rigid I.
  Notation ob := (obt C (obi I)).
  Notation "f == g" := (heq C f g) (at level 70).
  Notation "f ;; g" := (cmp C f g) (at level 50, left associativity).
  Notation "f ⊗ g" := (tns C f g) (at level 40, left associativity).
  Notation "1_ t" := (idm C (obt C (obi I) t)) (at level 0, t at level 0).
  Lemma cap_layers_extend p q suf : cap_layers (p ++ q) suf = map (l_extend (map (rot_atom 1) p) (rev p)) (cap_layers q suf).
  Proof.
    revert q. induction suf as [|a suf IH]; intro q; cbn [cap_layers map]; [reflexivity|]. rewrite <- app_assoc, IH. cbn [l_extend]. rewrite map_app, rev_app_distr. reflexivity.
  Qed.
  Lemma rot_back a : rot_atom 1 (rot_atom (-1) a) = a.
  Proof. rewrite rot_atom_add. apply rot_atom_0. Qed.
  Definition adjl (t : ty) : ty := rev (map (rot_atom (-1)) t).
  Definition etas (t : ty) : Hom C := den_layers I (t ++ adjl t) (cap_layers [] (map (rot_atom (-1)) t)).
  Definition epss (t : ty) : Hom C := den_layers I [] (cup_layers t).
  Lemma duals t : dual (ob (adjl t)) (ob t) (etas t) (epss t).
  Proof.
    induction t as [|a t IH].
    - apply dual_unit.
    - assert (D : dual (obi I (rot_atom (-1) a)) (obi I a) (ari I (Cap a (rot_atom (-1) a) false)) (ari I (Cup (rot_atom (-1) a) a false))).
      { destruct (R false (rot_atom (-1) a)) as (S1 & S2). cbn [adj_of] in S1, S2. rewrite rot_back in S1, S2.
        assert (BO : box_ok (Cap a (rot_atom (-1) a) false)) by (cbn; symmetry; apply rot_back). assert (BU : box_ok (Cup (rot_atom (-1) a) a false)) by (cbn; reflexivity).
        constructor; try assumption.
        - rewrite ari_src by exact BO. reflexivity.
        - rewrite ari_tgt by exact BO. cbn. rewrite ot_unit_r. reflexivity.
        - rewrite ari_src by exact BU. cbn. rewrite ot_unit_r. reflexivity.
        - rewrite ari_tgt by exact BU. reflexivity. }
      assert (K := dual_tensor IH D).
      assert (OA : ob (adjl (a :: t)) = ot C (ob (adjl t)) (obi I (rot_atom (-1) a))) by (unfold adjl; cbn [map rev]; rewrite obt_app, obt_single; reflexivity).
      rewrite OA. change (ob (a :: t)) with (ot C (obi I a) (ob t)). apply (dual_heq K).
      + unfold etas. cbn [map cap_layers app]. rewrite rot_back. cbn [den_layers]. apply cmp_heq.
        * cbn [den_layer map rev]. change (ob []) with (unit_ob C). rewrite tns_unit_l, tns_unit_r. reflexivity.
        * rewrite (cap_layers_extend [rot_atom (-1) a] []). cbn [map rev app]. rewrite rot_back.
          assert (E : a :: t ++ adjl (a :: t) = [a] ++ (t ++ adjl t) ++ [rot_atom (-1) a]) by (unfold adjl; cbn [map rev app]; rewrite <- !app_assoc; reflexivity).
          rewrite E. destruct (cap_layers_wf (map (rot_atom (-1)) t) []) as (W1 & W2). cbn [map rev app] in W1. rewrite map_map, (map_ext (fun x => rot_atom 1 (rot_atom (-1) x)) (fun x => x) rot_back), map_id in W1.
          rewrite (den_extend I [a] [rot_atom (-1) a] W1 W2). rewrite !obt_single. reflexivity.
      + unfold epss. cbn [cup_layers den_layers den_layer]. reflexivity.
  Qed.
  Lemma den_caps t : exists d, caps t (rot (-1) t) false = Ok d /\ typed d [] (t ++ rot (-1) t) /\ den I d = etas t.
  Proof.
    destruct (caps_typed_l t) as (d & E & T). exists d. split; [exact E|]. split; [exact T|]. assert (K := caps_eq (rot (-1) t)). rewrite rot_lr in K. rewrite E in K. injection K as ->.
    unfold den, etas, adjl. cbn [cod layers]. rewrite rot_m1, rev_involutive. reflexivity.
  Qed.
  Lemma den_cups t : exists d, cups (rot (-1) t) t false = Ok d /\ typed d (rot (-1) t ++ t) [] /\ den I d = epss t.
  Proof. destruct (cups_typed t) as (d & E & T). exists d. split; [exact E|]. split; [exact T|]. rewrite cups_eq in E. injection E as <-. reflexivity. Qed.
  Lemma adjl_rot t : adjl t = rot (-1) t.
  Proof. symmetry. apply rot_m1. Qed.

  (** transposes and curried diagrams *)
  Lemma then_two x y m n p : typed x m n -> typed y n p -> exists r, d_then x y = Ok r /\ typed r m p /\ den I r == den I x ;; den I y.
  Proof. intros T1 T2. destruct (typed_then T1 T2) as (r & E & T). exists r. split; [exact E|]. split; [exact T|]. exact (den_then I (proj1 T1) (proj1 T2) E). Qed.
  Lemma den_tensor' x y m n p r : typed x m n -> typed y p r -> den I (tensor x y) == den I x ⊗ den I y.
  Proof. intros (W1 & _) (W2 & _). apply den_tensor; assumption. Qed.
  Notation tr s t f := (cur_r (ob s) (etas s) (ob t) (unc_l (ob t) (epss t) (unit_ob C) f)).
  Notation tl s t g := (cur_l (ob (rot (-1) t)) (etas t) (ob (rot (-1) s)) (unc_r (ob (rot (-1) s)) (epss s) (unit_ob C) g)).
  Lemma ob_src d m n : typed d m n -> src C (den I d) = ob m /\ tgt C (den I d) = ob n.
  Proof. intros (W & <- & <-). split; [apply den_src|apply den_tgt]; exact W. Qed.
  Lemma dual_at t : dual (ob (rot (-1) t)) (ob t) (etas t) (epss t).
  Proof. rewrite <- adjl_rot. apply duals. Qed.
  Lemma den_tr d s t : typed d (rot (-1) s) (rot (-1) t) -> exists e, transpose d false = Ok e /\ typed e t s /\ den I e == tr s t (den I d).
  Proof.
    intro T. assert (DS : dom d = rot (-1) s) by apply T. assert (DT : cod d = rot (-1) t) by apply T. unfold transpose. rewrite DS, DT, !rot_lr.
    destruct (den_caps s) as (ca & -> & Tca & Eca). destruct (den_cups t) as (cu & -> & Tcu & Ecu). cbn [bind].
    assert (T1 := typed_tensor Tca (typed_id t)). assert (T2 := typed_tensor (typed_tensor (typed_id s) T) (typed_id t)). assert (T3 := typed_tensor (typed_id s) Tcu). cbn [app] in T1.
    rewrite app_nil_r in T3. rewrite <- app_assoc in T1, T2. rewrite <- app_assoc in T2.
    destruct (ob_src T) as (O1 & O2). destruct (ob_src Tcu) as (O3 & O4). destruct (ob_src Tca) as (O5 & O6). rewrite obt_app in O3, O6.
    destruct (then_two T1 T2) as (x & -> & Tx & Ex). cbn [bind]. destruct (then_two Tx T3) as (e & -> & Te & Ee). exists e. split; [reflexivity|]. split; [exact Te|].
    rewrite Ee, Ex. rewrite (den_tensor' Tca (typed_id t)), (den_tensor' (typed_tensor (typed_id s) T) (typed_id t)), (den_tensor' (typed_id s) T), (den_tensor' (typed_id s) Tcu), !den_id, Eca, Ecu.
    rewrite Eca in O5, O6. rewrite Ecu in O3, O4. cbn [obt] in O4, O5. unfold cur_r, unc_l. rewrite wl by st. rewrite tns_unit_l, tns_assoc. apply cmp_assoc; st.
  Qed.
  Lemma den_tl g s t : typed g t s -> exists e, transpose g true = Ok e /\ typed e (rot (-1) s) (rot (-1) t) /\ den I e == tl s t (den I g).
  Proof.
    intro T. assert (DS : dom g = t) by apply T. assert (DT : cod g = s) by apply T. unfold transpose. rewrite DS, DT.
    destruct (den_caps t) as (ca & -> & Tca & Eca). destruct (den_cups s) as (cu & -> & Tcu & Ecu). cbn [bind].
    assert (T1 := typed_tensor (typed_id (rot (-1) s)) Tca). assert (T2 := typed_tensor (typed_tensor (typed_id (rot (-1) s)) T) (typed_id (rot (-1) t))). assert (T3 := typed_tensor Tcu (typed_id (rot (-1) t))). cbn [app] in T3.
    rewrite app_nil_r in T1. rewrite <- app_assoc in T2, T3. rewrite <- app_assoc in T2.
    destruct (ob_src T) as (O1 & O2). destruct (ob_src Tcu) as (O3 & O4). destruct (ob_src Tca) as (O5 & O6). rewrite obt_app in O3, O6.
    destruct (then_two T1 T2) as (x & -> & Tx & Ex). cbn [bind]. destruct (then_two Tx T3) as (e & -> & Te & Ee). exists e. split; [reflexivity|]. split; [exact Te|].
    rewrite Ee, Ex. rewrite (den_tensor' (typed_id (rot (-1) s)) Tca), (den_tensor' (typed_tensor (typed_id (rot (-1) s)) T) (typed_id (rot (-1) t))), (den_tensor' (typed_id (rot (-1) s)) T), (den_tensor' Tcu (typed_id (rot (-1) t))), !den_id, Eca, Ecu.
    rewrite Eca in O5, O6. rewrite Ecu in O3, O4. cbn [obt] in O4, O5. unfold cur_l, unc_r. rewrite wr by st. rewrite tns_unit_r. apply cmp_assoc; st.
  Qed.
  Lemma transpose_rl d s t : typed d s t -> exists e e', transpose d false = Ok e /\ transpose e true = Ok e' /\ typed e' s t /\ den I e' == den I d.
  Proof.
    intro T. rewrite <- (rot_rl s), <- (rot_rl t) in T. destruct (den_tr T) as (e & E1 & T1 & D1). destruct (den_tl T1) as (e' & E2 & T2 & D2). rewrite !rot_rl in T2. exists e, e'. split; [exact E1|]. split; [exact E2|]. split; [exact T2|].
    destruct (ob_src T) as (O1 & O2). rewrite D2. unfold cur_l at 1, unc_r at 1. rewrite D1.
    assert (Ds := dual_at (rot 1 s)). assert (Dt := dual_at (rot 1 t)).
    destruct (@unc_l_ty _ _ _ _ _ Dt (ob (rot (-1) (rot 1 s))) (unit_ob C) (den I d) O1 ltac:(rewrite O2, ot_unit_l; reflexivity)) as (P1 & P2).
    assert (K := unc_cur_r Ds P1 P2). unfold unc_r in K. rewrite K. exact (cur_unc_l Dt O1 ltac:(rewrite O2, ot_unit_l; reflexivity)).
  Qed.
  Lemma transpose_lr g s t : typed g t s -> exists e e', transpose g true = Ok e /\ transpose e false = Ok e' /\ typed e' t s /\ den I e' == den I g.
  Proof.
    intro T. destruct (den_tl T) as (e & E1 & T1 & D1). destruct (den_tr T1) as (e' & E2 & T2 & D2). exists e, e'. split; [exact E1|]. split; [exact E2|]. split; [exact T2|].
    destruct (ob_src T) as (O1 & O2). rewrite D2. unfold cur_r at 1, unc_l at 1. rewrite D1.
    assert (Ds := dual_at s). assert (Dt := dual_at t).
    destruct (@unc_r_ty _ _ _ _ _ Ds (ob t) (unit_ob C) (den I g) O1 ltac:(rewrite O2, ot_unit_r; reflexivity)) as (P1 & P2).
    assert (K := unc_cur_l Dt P1 P2). unfold unc_l in K. rewrite K. exact (cur_unc_r Ds O1 ltac:(rewrite O2, ot_unit_r; reflexivity)).
  Qed.
  (** currying and putting the exponent back *)
  Lemma uncurry_left d base expo t : typed d (base ++ expo) t -> expo <> [] ->
    exists c cu e, curry d (Z.of_nat (List.length expo)) true = Ok c /\ cups (rot (-1) expo) expo false = Ok cu /\ d_then (tensor c (id expo)) (tensor (id t) cu) = Ok e /\ typed e (base ++ expo) t /\ den I e == den I d.
  Proof.
    intros T N. destruct (curry_left_typed T N) as (c & E & Tc). destruct (den_cups expo) as (cu & Eu & Tu & Du).
    assert (T1 := typed_tensor Tc (typed_id expo)). assert (T2 := typed_tensor (typed_id t) Tu). rewrite <- app_assoc in T1. rewrite app_nil_r in T2.
    destruct (then_two T1 T2) as (e & Ee & Te & De). exists c, cu, e. split; [exact E|]. split; [exact Eu|]. split; [exact Ee|]. split; [exact Te|].
    rewrite De, (den_tensor' Tc (typed_id expo)), (den_tensor' (typed_id t) Tu), !den_id, Du.
    assert (Dc : den I c == cur_l (ob (rot (-1) expo)) (etas expo) (ob base) (den I d)).
    { pose proof T as (W & D & Cd). unfold curry in E. assert (Hl : 0 < List.length expo) by (destruct expo; cbn; [congruence|lia]).
      rewrite py_slice_stop, py_slice_start, adj_neg in E by lia. rewrite Z.opp_involutive, Nat2Z.id in E. rewrite D, app_length in E. replace (List.length base + List.length expo - List.length expo) with (List.length base) in E by lia.
      rewrite firstn_app, skipn_app, Nat.sub_diag, firstn_all, skipn_all in E. cbn [firstn skipn app] in E. rewrite app_nil_r in E.
      destruct (den_caps expo) as (ca & Ea & Ta & Da). rewrite Ea in E. cbn [bind] in E. assert (T3 := typed_tensor (typed_id base) Ta). rewrite app_nil_r in T3. assert (T4 := typed_tensor T (typed_id (rot (-1) expo))).
      rewrite (den_then I (proj1 T3) (proj1 T4) E), (den_tensor' (typed_id base) Ta), (den_tensor' T (typed_id (rot (-1) expo))), !den_id, Da. reflexivity. }
    rewrite Dc. destruct (ob_src T) as (O1 & O2). rewrite obt_app in O1. exact (unc_cur_l (dual_at expo) O1 O2).
  Qed.
  Lemma uncurry_right d base expo t : typed d (expo ++ base) t ->
    exists c cu e, curry d (Z.of_nat (List.length expo)) false = Ok c /\ cups expo (rot 1 expo) false = Ok cu /\ d_then (tensor (id expo) c) (tensor cu (id t)) = Ok e /\ typed e (expo ++ base) t /\ den I e == den I d.
  Proof.
    intros T. destruct (curry_right_typed T) as (c & E & Tc). destruct (den_cups (rot 1 expo)) as (cu & Eu & Tu & Du). rewrite rot_rl in Eu, Tu.
    assert (T1 := typed_tensor (typed_id expo) Tc). assert (T2 := typed_tensor Tu (typed_id t)). rewrite <- app_assoc in T2. cbn [app] in T2.
    destruct (then_two T1 T2) as (e & Ee & Te & De). exists c, cu, e. split; [exact E|]. split; [exact Eu|]. split; [exact Ee|]. split; [exact Te|].
    rewrite De, (den_tensor' (typed_id expo) Tc), (den_tensor' Tu (typed_id t)), !den_id, Du.
    assert (Dc : den I c == cur_r (ob (rot 1 expo)) (etas (rot 1 expo)) (ob base) (den I d)).
    { pose proof T as (W & D & Cd). unfold curry in E. rewrite py_slice_stop_pos, py_slice_start_pos in E by lia. rewrite Nat2Z.id in E. rewrite D, firstn_app, skipn_app, Nat.sub_diag, firstn_all, skipn_all in E. cbn [firstn skipn app] in E. rewrite app_nil_r in E.
      destruct (den_caps (rot 1 expo)) as (ca & Ea & Ta & Da). rewrite rot_rl in Ea, Ta. rewrite Ea in E. cbn [bind] in E. assert (T3 := typed_tensor Ta (typed_id base)). cbn [app] in T3. assert (T4 := typed_tensor (typed_id (rot 1 expo)) T).
      rewrite (den_then I (proj1 T3) (proj1 T4) E), (den_tensor' Ta (typed_id base)), (den_tensor' (typed_id (rot 1 expo)) T), !den_id, Da. reflexivity. }
    rewrite Dc. destruct (ob_src T) as (O1 & O2). rewrite obt_app in O1. assert (K := dual_at (rot 1 expo)). rewrite rot_rl in K. exact (unc_cur_r K O1 O2).
  Qed.
  Lemma compound_snakes t : exists ca cu e1 e2, caps t (rot (-1) t) false = Ok ca /\ cups (rot (-1) t) t false = Ok cu /\
    d_then (tensor ca (id t)) (tensor (id t) cu) = Ok e1 /\ den I e1 == 1_ t /\
    d_then (tensor (id (rot (-1) t)) ca) (tensor cu (id (rot (-1) t))) = Ok e2 /\ den I e2 == 1_ (rot (-1) t).
  Proof.
    destruct (den_caps t) as (ca & Ea & Ta & Da). destruct (den_cups t) as (cu & Eu & Tu & Du).
    assert (T1 := typed_tensor Ta (typed_id t)). assert (T2 := typed_tensor (typed_id t) Tu). rewrite <- app_assoc in T1. cbn [app] in T1. rewrite app_nil_r in T2.
    assert (T3 := typed_tensor (typed_id (rot (-1) t)) Ta). assert (T4 := typed_tensor Tu (typed_id (rot (-1) t))). rewrite app_nil_r in T3. rewrite <- app_assoc in T4. cbn [app] in T4.
    destruct (then_two T1 T2) as (e1 & E1 & _ & D1). destruct (then_two T3 T4) as (e2 & E2 & _ & D2). exists ca, cu, e1, e2. split; [exact Ea|]. split; [exact Eu|]. split; [exact E1|]. split; [|split; [exact E2|]].
    - rewrite D1, (den_tensor' Ta (typed_id t)), (den_tensor' (typed_id t) Tu), !den_id, Da, Du. exact (sn2 (dual_at t)).
    - rewrite D2, (den_tensor' (typed_id (rot (-1) t)) Ta), (den_tensor' Tu (typed_id (rot (-1) t))), !den_id, Da, Du. exact (sn1 (dual_at t)).
  Qed.
End Den.
