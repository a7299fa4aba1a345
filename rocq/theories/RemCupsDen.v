(** The morphism denoted by the result of removing cups (lemmas only). *)
From Coq Require Import Permutation.
From Verif Require Import PyBase PyFacts TyModel TyFacts DiagModel DiagSpec DiagFacts DiagRot DiagPerm DiagCups DiagMisc BoxEq Cat CatFacts CatDual TurnSpec TurnFacts RemCupsModel RemCupsSpec RemCupsFacts.
Set Implicit Arguments. Unset Strict Implicit.

Section Den.
  Variable C : smc.
  Variable I : interp C.
  Notation ob := (obt C (obi I)).
  Notation "f == g" := (heq C f g) (at level 70).
  Notation "f ;; g" := (cmp C f g) (at level 50, left associativity).
  Notation "f ⊗ g" := (tns C f g) (at level 40, left associativity).
  Notation "1_ t" := (idm C (obt C (obi I) t)) (at level 0, t at level 0).
  Notation U := (unit_ob C).
  Notation nc := (nested_cups I).
  Hypothesis T : forall rv b, unreserved b -> box_ok b ->
    slides I rv (b_dom b) (b_cod b) (ari I b) (ari I (b_rotate (side rv) (b_dagger b))) /\
    slides I rv (rot (- side rv) (b_cod b)) (rot (- side rv) (b_dom b)) (ari I (b_rotate (- side rv) (b_dagger b))) (ari I b).
  Hypothesis Htok : forall p0 p1 p2 p3 rv0 rv1, box_ok (Cup p0 p3 rv0) -> box_ok (Cup p1 p2 rv1) ->
    ari I (Box CUP_TOKEN [p0; p1; p2; p3] [] 0) == (1_ [p0] ⊗ (ari I (Cup p1 p2 rv1) ⊗ 1_ [p3])) ;; ari I (Cup p0 p3 rv0).

  Lemma nc_one rv a : nc rv [a] == ari I (Cup (rot_atom (side rv) a) a rv).
  Proof.
    cbn [nested_cups]. rewrite rot_nil. change (ob []) with U. rewrite tns_unit_l, tns_unit_r. apply cmp_idm_r. rewrite ari_tgt by apply cup_ok. reflexivity.
  Qed.
  Lemma cup_rv p a rv : box_ok (Cup p a rv) -> p = rot_atom (side rv) a. Proof. destruct rv; cbn; auto. Qed.
  Lemma side_inj rv rv' a : rot_atom (side rv) a = rot_atom (side rv') a -> rv = rv'.
  Proof. destruct a as [n z]. unfold rot_atom. cbn [fst snd]. intro H. injection H. destruct rv, rv'; cbn [side]; intros; auto; lia. Qed.
  (** cups and pairs of nested cups *)
  Lemma cuplike b t1 t2 rv : is_cup b = true \/ (exists p0 p1 p2 p3, b = Box CUP_TOKEN [p0; p1; p2; p3] [] 0) -> box_ok b ->
    b_dom b = t1 ++ t2 -> List.length t1 = List.length t2 -> t1 = rot (side rv) t2 -> ari I b == nc rv t2.
  Proof.
    intros [H|(p0 & p1 & p2 & p3 & ->)] O E L ->; rewrite rot_length in L.
    - destruct b as [| | |p a rv'| | | | |]; try discriminate. cbn in E. assert (Q : List.length (rot (side rv) t2 ++ t2) = 2) by (rewrite <- E; reflexivity). rewrite app_length, rot_length in Q.
      destruct t2 as [|x [|y t2]]; cbn in Q; try lia. rewrite rot_single in E. cbn in E. injection E as -> ->. rewrite nc_one. apply cup_rv in O. apply side_inj in O. subst rv'. reflexivity.
    - cbn in E. assert (Q : List.length (rot (side rv) t2 ++ t2) = 4) by (rewrite <- E; reflexivity). rewrite app_length, rot_length in Q.
      destruct t2 as [|x [|y [|w t2]]]; cbn in Q; try lia. rewrite rot_side_cons, rot_single in E. cbn in E. injection E as -> -> -> ->.
      rewrite (@Htok _ _ _ _ rv rv) by apply cup_ok. cbn [nested_cups]. rewrite !rot_single, rot_nil. change (ob []) with U. rewrite tns_unit_l, tns_unit_r. apply cmp_heq; [reflexivity|].
      symmetry. apply cmp_idm_r. rewrite ari_tgt by apply cup_ok. reflexivity.
  Qed.
  Lemma cups_den t1 t2 rv d : cups t1 t2 rv = Ok d -> List.length t1 = List.length t2 -> 0 < List.length t1 -> exists rv', t1 = rot (side rv') t2 /\ den I d == nc rv' t2.
  Proof.
    intros E L Hp. destruct rv.
    - destruct t1 as [|a [|a' t1]]; cbn in Hp; [lia| |rewrite cups_reversed_compound in E; discriminate]. destruct t2 as [|r [|r' t2]]; cbn in L; try lia.
      cbn in E. unfold mk_cup in E. destruct (cup_adjoint [a] [r] true) eqn:Ea; [|discriminate]. cbn in E. injection E as <-. cbn [cup_adjoint] in Ea. apply ty_eqb_iff in Ea. rewrite rot_single in Ea. injection Ea as ->.
      exists true. split; [now rewrite rot_single|]. rewrite den_box by reflexivity. rewrite nc_one. reflexivity.
    - pose proof (cups_inv E) as ->. exists false. split; [reflexivity|]. rewrite cups_eq in E. injection E as <-. unfold den. cbn [cod layers]. clear.
      induction t2 as [|a t IH]; cbn [cup_layers den_layers nested_cups]; [reflexivity|]. rewrite IH. cbn [den_layer]. unfold side. rewrite rot_m1. reflexivity.
  Qed.
  Lemma typed_den d s t : typed d s t -> src C (den I d) = ob s /\ tgt C (den I d) = ob t.
  Proof. intros (W & <- & <-). split; [apply den_src|apply den_tgt]; exact W. Qed.

  Lemma contract_den left right s1 s2 t1 t2 u1 u2 b L R new :
    good left s1 t1 u1 -> good right s2 t2 u2 -> t1 ++ t2 = L ++ b_dom b ++ R ->
    box_ok b -> tok b -> (is_cup b = false -> b_name b <> CUP_TOKEN -> unreserved b) ->
    rc_contract left right (List.length L) b = Ok new -> den I new == (den I left ⊗ den I right) ;; (1_ L ⊗ (ari I b ⊗ 1_ R)).
  Proof.
    intros Gl Gr E Ho Ht Hu H. assert (Tl := proj1 Gl). assert (Tr := proj1 Gr). assert (Ul := proj1 (proj2 Gl)). assert (Ur := proj1 (proj2 Gr)). unfold rc_contract in H.
    destruct (typed_den Tl) as (Sl1 & Sl2). destruct (typed_den Tr) as (Sr1 & Sr2).
    assert (Cl : cod left = t1) by apply Tl. assert (Cr : cod right = t2) by apply Tr.
    assert (Dl : dom left = s1) by apply Tl. assert (Dr : dom right = s2) by apply Tr.
    rewrite Cl, Cr, Dl, Dr, E in H. rewrite slice_l, slice_r in H by exact [].
    destruct (String.eqb (b_name b) CUP_TOKEN || is_cup b) eqn:Ec.
    - assert (Hb : b_cod b = [] /\ (is_cup b = true \/ exists p0 p1 p2 p3, b = Box CUP_TOKEN [p0; p1; p2; p3] [] 0) /\ exists n, 0 < n /\ List.length (b_dom b) = n + n).
      { apply orb_prop in Ec. destruct Ec as [Ec|Ec].
        - apply String.eqb_eq in Ec. destruct (Ht Ec) as (d & -> & Ld). split; [reflexivity|]. destruct d as [|p0 [|p1 [|p2 [|p3 [|? ?]]]]]; cbn in Ld; try lia. split; [right; now exists p0, p1, p2, p3|]. exists 2. cbn. lia.
        - split; [destruct b; try discriminate; reflexivity|]. split; [left; exact Ec|]. destruct b; try discriminate. exists 1. cbn. lia. }
      destruct Hb as (Hcod & Hb & n & Hn & Ln). rewrite Ln in H. replace ((n + n) / 2) with n in H.
      2:{ replace (n + n) with (n * 2) by lia. symmetry. apply Nat.div_mul. lia. }
      destruct (slice_half (b_dom b) n) as [-> ->] in H.
      assert (Lt1 : List.length (firstn n (b_dom b)) = n) by (rewrite firstn_length; lia).
      assert (Lt2 : List.length (skipn n (b_dom b)) = n) by (rewrite skipn_length; lia).
      assert (Eb := eq_sym (firstn_skipn n (b_dom b))). set (p1 := firstn n (b_dom b)) in *. set (p2 := skipn n (b_dom b)) in *. clearbody p1 p2.
      assert (Sb : src C (ari I b) = ot C (ob p1) (ob p2)) by (rewrite ari_src by exact Ho; rewrite Eb; apply obt_app). assert (Tb : tgt C (ari I b) = U) by (rewrite ari_tgt by exact Ho; rewrite Hcod; reflexivity).
      destruct (Nat.eqb (List.length t1) n && Nat.eqb (List.length s1) 0) eqn:C1.
      + apply andb_prop in C1. destruct C1 as [C1 C2]. apply Nat.eqb_eq in C1. apply Nat.eqb_eq in C2. apply length_zero_iff_nil in C2. subst s1.
        set (rv := ty_eqb (rot 1 p1) p2) in H. replace (if rv then 1%Z else (-1)%Z) with (side rv) in H by reflexivity. fold (turned rv left) in H.
        assert (Tt := turned_typed rv Tl). assert (Tx := typed_tensor Tt (typed_id R)). rewrite rot_nil in Tx. cbn [app] in Tx.
        pose proof H as Ed. apply d_then_inv in Ed. destruct Ed as [Ed _]. rewrite Cr in Ed. rewrite (proj1 (proj2 Tx)) in Ed.
        assert (HL : L = []). { apply length_zero_iff_nil. apply (f_equal (@List.length _)) in E, Ed. rewrite !app_length, rot_length in *. lia. }
        subst L. cbn [app] in E. rewrite Eb, <- app_assoc in E. destruct (app_len_inj E) as (-> & ->); [lia|]. destruct (app_len_inj Ed) as (Hp2 & _); [rewrite rot_length; lia|].
        assert (Hb2 := cuplike Hb Ho Eb (eq_trans Lt1 (eq_sym Lt2)) (rv := negb rv)). rewrite Hp2 in Hb2 at 1. rewrite rot_side_fwd in Hb2. specialize (Hb2 eq_refl).
        assert (Et := state_left T rv Ul Tl). rewrite <- Hp2 in Et. rewrite (den_then I (proj1 Tr) (proj1 Tx) H). rewrite (den_tensor I (proj1 Tt) (proj1 (typed_id R))), den_id. rewrite Et, <- Hb2.
        rewrite obt_app in Sr2. change (ob []) with U. rewrite tns_unit_l. rewrite wr by st.
        rewrite <- (ex2 (f := den I left) (g := den I right) (a := U) (b := ot C (ob p2) (ob R))) by st. rewrite tns_unit_l. rewrite <- tns_idm, <- tns_assoc. symmetry. apply cmp_assoc; st.
      + destruct (Nat.eqb (List.length t2) n && Nat.eqb (List.length s2) 0) eqn:C3.
        * apply andb_prop in C3. destruct C3 as [C3 C4]. apply Nat.eqb_eq in C3. apply Nat.eqb_eq in C4. apply length_zero_iff_nil in C4. subst s2.
          set (rv := negb (ty_eqb (rot 1 p1) p2)) in H. replace (if ty_eqb (rot 1 p1) p2 then (-1)%Z else 1%Z) with (side rv) in H by (unfold rv; destruct (ty_eqb (rot 1 p1) p2); reflexivity). fold (turned rv right) in H.
          assert (Tt := turned_typed rv Tr). assert (Tx := typed_tensor (typed_id L) Tt). rewrite rot_nil, app_nil_r in Tx.
          pose proof H as Ed. apply d_then_inv in Ed. destruct Ed as [Ed _]. rewrite Cl in Ed. rewrite (proj1 (proj2 Tx)) in Ed.
          assert (HR : R = []). { apply length_zero_iff_nil. apply (f_equal (@List.length _)) in E, Ed. rewrite !app_length, rot_length in *. lia. }
          subst R. rewrite app_nil_r, Eb, app_assoc in E. destruct (app_len_inj E) as (-> & ->).
          { apply (f_equal (@List.length _)) in E. rewrite !app_length in *. lia. }
          destruct (app_len_inj Ed) as (_ & Hp1); [reflexivity|].
          assert (Hb2 := cuplike Hb Ho Eb (eq_trans Lt1 (eq_sym Lt2)) Hp1).
          assert (Et := state_right T rv Ur Tr). rewrite <- Hp1 in Et. rewrite (den_then I (proj1 Tl) (proj1 Tx) H). rewrite (den_tensor I (proj1 (typed_id L)) (proj1 Tt)), den_id. rewrite Et, <- Hb2.
          rewrite obt_app in Sl2. change (ob []) with U. rewrite tns_unit_r. rewrite wl by st.
          rewrite <- (ex1 (f := den I left) (g := den I right) (b := U) (a := ot C (ob L) (ob p1))) by st. rewrite tns_unit_r. rewrite <- tns_idm, tns_assoc. symmetry. apply cmp_assoc; st.
        * destruct (cups p1 p2 _) as [nb|] eqn:Ecups; [|discriminate]. cbn [bind] in H. destruct (cups_den Ecups) as (rv & Hp1 & Dn); [lia|lia|].
          assert (Hb2 := cuplike Hb Ho Eb (eq_trans Lt1 (eq_sym Lt2)) Hp1).
          assert (Tn : typed nb (p1 ++ p2) []).
          { destruct (ty_eqb p2 (rot 1 p1)); cbn [negb] in Ecups.
            - pose proof (cups_inv Ecups) as ->. destruct (cups_typed p2) as (d & E1 & T1). rewrite Ecups in E1. injection E1 as <-. exact T1.
            - destruct p1 as [|a [|a' p1]]; cbn in Lt1; [lia| |rewrite cups_reversed_compound in Ecups; discriminate]. destruct p2 as [|r [|r' p2]]; cbn in Lt2; try lia.
              cbn in Ecups. unfold mk_cup in Ecups. destruct (cup_adjoint [a] [r] true) eqn:Ea; [|discriminate]. cbn in Ecups. injection Ecups as <-. cbn [cup_adjoint] in Ea. apply ty_eqb_iff in Ea. rewrite rot_single in Ea. injection Ea as ->. now apply typed_to_diag. }
          assert (Tx := typed_tensor (typed_tensor (typed_id L) Tn) (typed_id R)). assert (Ty := typed_tensor Tl Tr).
          rewrite (den_then I (proj1 Ty) (proj1 Tx) H). rewrite (den_tensor I (proj1 Tl) (proj1 Tr)), (den_tensor I (proj1 (typed_tensor (typed_id L) Tn)) (proj1 (typed_id R))), (den_tensor I (proj1 (typed_id L)) (proj1 Tn)), !den_id.
          rewrite Dn, <- Hb2, tns_assoc. reflexivity.
    - assert (Tn := typed_box _ Ho). assert (Tx := typed_tensor (typed_tensor (typed_id L) Tn) (typed_id R)). assert (Ty := typed_tensor Tl Tr).
      rewrite (den_then I (proj1 Ty) (proj1 Tx) H). rewrite (den_tensor I (proj1 Tl) (proj1 Tr)), (den_tensor I (proj1 (typed_tensor (typed_id L) Tn)) (proj1 (typed_id R))), (den_tensor I (proj1 (typed_id L)) (proj1 Tn)), !den_id.
      rewrite (den_box I Ho), tns_assoc. reflexivity.
  Qed.

  (** lists of diagrams *)
  Definition dl (ds : list diagram) : Hom C := fold_right (fun d acc => den I d ⊗ acc) (idm C U) ds.
  Lemma dl_app a b : dl (a ++ b) == dl a ⊗ dl b.
  Proof. unfold dl. induction a as [|d a IH]; cbn [app fold_right]; [now rewrite tns_unit_l|]. rewrite IH, tns_assoc. reflexivity. Qed.
  Lemma dl_ty ds s t u : goods ds s t u -> src C (dl ds) = ob s /\ tgt C (dl ds) = ob t.
  Proof.
    induction 1 as [|d ds s t u s' t' u' G Gs (S & T')]; cbn [dl fold_right]; [rewrite src_idm, tgt_idm; split; reflexivity|]. fold (dl ds).
    destruct (typed_den (proj1 G)) as (S1 & T1). rewrite !obt_app. split; st.
  Qed.
  Lemma den_fold ds s t u : goods ds s t u -> forall d, wf d -> den I (fold_left tensor ds d) == den I d ⊗ dl ds.
  Proof.
    induction 1 as [|d' ds s t u s' t' u' G Gs IH]; intros d W; cbn [fold_left dl fold_right]; [now rewrite tns_unit_r|]. fold (dl ds).
    rewrite IH by (apply wf_tensor; [exact W|apply G]). rewrite den_tensor by (try exact W; apply G). apply tns_assoc.
  Qed.
  Lemma step_den ds x s t u ds' : goods ds s t u -> l_dom x = t -> step_ok (l_box x) -> rc_step ds x = Ok ds' -> dl ds' == dl ds ;; den_layer I x.
  Proof.
    intros G Hd Hok E. destruct (step_cases G Hd Hok) as [(pre & rest & s1 & t1 & u1 & s2 & t2 & u2 & G1 & G2 & -> & Ht & -> & B & L1 & L2 & E' & ->)|
      (pre & lft & right & more & s1 & t1 & u1 & sl & tl & ul & sr & tr & ur & s2 & t2 & u2 & L & R & G1 & Gl & Gr & G2 & -> & Ht & -> & E1 & L1 & L2 & Hlt & Hmin & E' & mid & sm & tm & um & Gm & -> & Er)].
    - rewrite E in E'. injection E' as ->. destruct x as [[l b] r]. cbn [l_box l_left l_right l_cod] in *. subst l r.
      destruct (dl_ty G1) as (S1 & T1). destruct (dl_ty G2) as (S2 & T2). assert (O : box_ok b) by apply Hok.
      assert (Sb : src C (ari I b) = U) by (rewrite ari_src, B by exact O; reflexivity). rewrite !dl_app. cbn [dl fold_right]. fold (dl rest). rewrite (den_box I O). cbn [den_layer].
      rewrite interchange_law by st. rewrite cmp_idm_r by st. apply tns_heq; [reflexivity|].
      rewrite <- (tns_unit_l C (dl rest)) at 2. rewrite interchange_law by st. rewrite cmp_idm_l, cmp_idm_r by st. reflexivity.
    - rewrite E in E'. destruct (rc_contract lft right (List.length L) (l_box x)) as [new|] eqn:Ec; [|discriminate].
      cbn in E'. injection E' as ->. destruct Hok as (O & To & Uu). pose proof (contract_den Gl Gr E1 O To Uu Ec) as Dn.
      destruct x as [[l b] r]. cbn [l_box l_left l_right l_cod] in *. subst l r.
      destruct (dl_ty G1) as (S1 & T1). destruct (dl_ty G2) as (S2 & T2). destruct (typed_den (proj1 Gl)) as (Sl & Tl). destruct (typed_den (proj1 Gr)) as (Sr & Tr).
      assert (Dr : den I right == dl mid). { rewrite Er, (den_fold Gm (proj1 (typed_id []))), den_id. change (ob []) with U. apply tns_unit_l. }
      assert (Sb := ari_src _ I b O). assert (Tb := ari_tgt _ I b O). assert (EO : ot C (ob tl) (ob tr) = ot C (ob L) (ot C (ob (b_dom b)) (ob R))) by (rewrite <- !obt_app, E1; reflexivity).
      rewrite !dl_app. cbn [dl fold_right]. fold (dl more). fold (dl (mid ++ more)). rewrite dl_app. rewrite <- Dr. cbn [den_layer].
      rewrite !obt_app, <- !tns_idm. rewrite !tns_assoc.
      assert (K : 1_ t1 ⊗ (1_ L ⊗ (ari I b ⊗ (1_ R ⊗ 1_ t2))) == 1_ t1 ⊗ ((1_ L ⊗ (ari I b ⊗ 1_ R)) ⊗ 1_ t2)) by (rewrite !tns_assoc; reflexivity).
      assert (EO3 : ot C (ob tl) (ot C (ob tr) (ob t2)) = ot C (ob L) (ot C (ob (b_dom b)) (ot C (ob R) (ob t2)))) by (rewrite <- ot_assoc, EO, !ot_assoc; reflexivity).
      rewrite K. rewrite interchange_law by st. rewrite cmp_idm_r by st. apply tns_heq; [reflexivity|]. rewrite <- (tns_assoc C (den I lft)). rewrite interchange_law by st. rewrite cmp_idm_r by st. rewrite Dn. reflexivity.
  Qed.
  Lemma pass_den ls : forall ds s t t' u ds', goods ds s t u -> chain t ls t' -> All (fun x => step_ok (l_box x)) ls ->
    foldM rc_step ls ds = Ok ds' -> dl ds' == dl ds ;; den_layers I t' ls.
  Proof.
    induction ls as [|x ls IH]; intros ds s t t' u ds' G Ch H E; cbn [foldM] in E.
    - cbn in Ch. injection E as <-. subst. cbn [den_layers]. symmetry. apply cmp_idm_r. symmetry. apply (dl_ty G).
    - cbn in Ch, H. destruct Ch as [C1 C2], H as [H1 H2]. destruct (rc_step ds x) as [ds1|] eqn:E1; [|discriminate]. cbn [bind] in E.
      destruct (step_sound G (eq_sym C1) H1 E1) as (u1 & G1 & P1). rewrite (IH _ _ _ _ _ _ G1 C2 H2 E), (step_den G (eq_sym C1) H1 E1). cbn [den_layers].
      assert (B : All (fun x => box_ok (l_box x)) ls) by (eapply All_impl; [|exact H2]; intros y Hy; apply Hy).
      apply cmp_assoc; [rewrite (proj2 (dl_ty G)), src_layer by apply H1; now rewrite C1|]. rewrite tgt_layer by apply H1. destruct (den_layers_types I C2 B) as [-> _]. reflexivity.
  Qed.
  Lemma once_den d e : wf d -> All (fun x => step_ok (l_box x)) (layers d) -> remove_cups_once d = Ok e -> den I e == den I d.
  Proof.
    intros [Ch B] H E. unfold remove_cups_once in E.
    assert (G0 : goods [id (dom d)] (dom d) (dom d) []).
    { pose proof (goods_cons (good_id (dom d)) goods_nil) as G. now rewrite !app_nil_r in G. }
    destruct (foldM rc_step (layers d) [id (dom d)]) as [ds|] eqn:Ef; [|discriminate]. cbn in E. injection E as <-.
    destruct (pass_sound G0 Ch H Ef) as (u & G & P). rewrite tensor_list_fold, (den_fold G (proj1 (typed_id []))), den_id. change (ob []) with U. rewrite tns_unit_l.
    rewrite (pass_den G0 Ch H Ef). cbn [dl fold_right]. rewrite tns_unit_r, den_id. apply cmp_idm_l. symmetry. exact (proj1 (den_layers_types I Ch B)).
  Qed.
  (** compressing nested cups *)
  Lemma den_layers_snoc ls x s t : chain s ls t -> All (fun x => box_ok (l_box x)) ls -> l_dom x = t -> box_ok (l_box x) -> den_layers I (l_cod x) (ls ++ [x]) == den_layers I t ls ;; den_layer I x.
  Proof.
    intros Ch A D O. assert (Cx : chain t [x] (l_cod x)) by (cbn; split; [now symmetry|reflexivity]). rewrite (den_layers_app I Ch Cx A) by (cbn; auto).
    apply cmp_heq; [reflexivity|]. cbn [den_layers]. apply cmp_idm_r. symmetry. apply tgt_layer. exact O.
  Qed.
  Lemma cb_ok acc : All (fun y => cbox (l_box y)) acc -> All (fun y => box_ok (l_box y)) (rev acc).
  Proof. intro A. apply All_rev. eapply All_impl; [|exact A]. now intros y []. Qed.
  Lemma lc_step_den acc s t x : chain s (rev acc) t -> l_dom x = t -> All (fun y => cbox (l_box y)) acc -> cbox (l_box x) ->
    den_layers I (l_cod x) (rev (lc_step acc x)) == den_layers I t (rev acc) ;; den_layer I x.
  Proof.
    intros Ch E A Bx. assert (D : den_layers I (l_cod x) (rev (x :: acc)) == den_layers I t (rev acc) ;; den_layer I x) by (cbn [rev]; apply den_layers_snoc with s; auto; [apply cb_ok, A|apply Bx]).
    destruct acc as [|[[l0 b0] r0] acc]; cbn [lc_step]; [exact D|]. destruct x as [[l b] r]. destruct (is_cup b && is_cup b0 && _) eqn:H; [|exact D]. clear D.
    apply andb_prop in H. destruct H as [H1 H2]. apply andb_prop in H1. destruct H1 as [H1 H3]. apply Z.eqb_eq in H2.
    destruct b as [| | |p0 p3 rv| | | | |]; try discriminate. destruct b0 as [| | |p1 p2 rv0| | | | |]; try discriminate.
    cbn [rev] in *. destruct (chain_snoc_inv Ch) as [C1 C2]. cbn [l_dom l_cod b_dom b_cod b_end app] in *.
    assert (Q : l0 = l ++ [p0] /\ r0 = p3 :: r).
    { rewrite <- E in C2. change (p0 :: p3 :: r) with ([p0] ++ (p3 :: r)) in C2. rewrite app_assoc in C2. destruct (app_len_inj C2) as [Q1 Q2]; [rewrite app_length; cbn [List.length]; lia|auto]. }
    destruct Q as [-> ->]. destruct A as (A0 & A). cbn [l_box] in *. assert (O0 : box_ok (Cup p1 p2 rv0)) by apply A0. assert (O1 : box_ok (Cup p0 p3 rv)) by apply Bx.
    change (py_slice [p0; p3] None (Some 1%Z)) with [p0]. change (py_slice [p0; p3] (Some 1%Z) None) with [p3].
    set (tk := Box CUP_TOKEN [p0; p1; p2; p3] [] 0).
    assert (DT : l_dom (l, tk, r) = l_dom (l ++ [p0], Cup p1 p2 rv0, p3 :: r)) by (cbn; now rewrite <- app_assoc).
    change (den_layers I (l_cod (l, tk, r)) (rev acc ++ [(l, tk, r)]) == den_layers I t (rev acc ++ [(l ++ [p0], Cup p1 p2 rv0, p3 :: r)]) ;; den_layer I (l, Cup p0 p3 rv, r)). rewrite (den_layers_snoc (x := (l, tk, r)) C1 (cb_ok A) DT) by exact Logic.I.
    rewrite <- E. replace (l ++ p0 :: p3 :: r) with (l_cod (l ++ [p0], Cup p1 p2 rv0, p3 :: r)) by (cbn; now rewrite <- app_assoc).
    rewrite (den_layers_snoc (x := (l ++ [p0], Cup p1 p2 rv0, p3 :: r)) C1 (cb_ok A) eq_refl) by exact O0.
    destruct (den_layers_types I C1 (cb_ok A)) as (_ & T1).
    rewrite cmp_assoc.
    2:{ rewrite T1, src_layer by exact O0. reflexivity. }
    2:{ rewrite tgt_layer, src_layer by assumption. cbn. now rewrite <- app_assoc. }
    apply cmp_heq; [reflexivity|]. cbn [den_layer]. unfold tk. rewrite (Htok O1 O0). change (p3 :: r) with ([p3] ++ r). rewrite !obt_app, <- !tns_idm.
    assert (X1 : src C (ari I (Cup p1 p2 rv0)) = ob [p1; p2] /\ tgt C (ari I (Cup p1 p2 rv0)) = U) by (rewrite ari_src, ari_tgt by exact O0; split; reflexivity). destruct X1 as (X1 & X2).
    assert (X3 : src C (ari I (Cup p0 p3 rv)) = ot C (ob [p0]) (ob [p3])) by (rewrite ari_src by exact O1; apply (obt_app I [p0] [p3])).
    rewrite wr by st. rewrite wl by st. rewrite !tns_assoc. reflexivity.
  Qed.
  Lemma lcompress_den ls : forall acc s t t', chain s (rev acc) t -> chain t ls t' -> All (fun y => cbox (l_box y)) acc ->
    All (fun y => box_ok (l_box y) /\ unreserved (l_box y)) ls -> den_layers I t' (rev (fold_left lc_step ls acc)) == den_layers I t (rev acc) ;; den_layers I t' ls.
  Proof.
    induction ls as [|x ls IH]; intros acc s t t' C1 C2 A H; cbn [fold_left].
    - cbn in C2. subst. cbn [den_layers]. symmetry. apply cmp_idm_r. symmetry. apply (den_layers_types I C1 (cb_ok A)).
    - cbn in C2, H. destruct C2 as [C2 C3], H as [[H1 H2] H3]. assert (Bx : cbox (l_box x)) by (split; auto).
      destruct (@lc_step_ok acc s t x) as (D1 & D2 & _ & _); auto. rewrite (IH _ _ _ _ D1 C3 D2 H3), (lc_step_den C1 (eq_sym C2) A Bx). cbn [den_layers].
      assert (B : All (fun x => box_ok (l_box x)) ls) by (eapply All_impl; [|exact H3]; intros y Hy; apply Hy).
      apply cmp_assoc; [destruct (den_layers_types I C1 (cb_ok A)) as (_ & ->); rewrite src_layer by exact H1; now rewrite C2|]. rewrite tgt_layer by exact H1. destruct (den_layers_types I C3 B) as [-> _]. reflexivity.
  Qed.
  Lemma compress_den d e : wf d -> Forall unreserved (boxes d) -> compress_cups d = Ok e -> den I e == den I d.
  Proof.
    intros W U' E. destruct (compress_spec W U') as (e' & E' & We & De & Ce & _ & _ & _ & Le). rewrite E in E'. injection E' as <-. destruct W as (Ch & B).
    assert (H : All (fun y => box_ok (l_box y) /\ unreserved (l_box y)) (layers d)) by (unfold boxes in U'; clear -B U'; induction (layers d); cbn in *; auto; inversion U'; subst; tauto).
    unfold den. rewrite Ce, Le. unfold lcompress. rewrite (@lcompress_den (layers d) [] (dom d) (dom d) (cod d)); cbn; auto. apply cmp_idm_l. symmetry. exact (proj1 (den_layers_types I Ch B)).
  Qed.
  Lemma rewrite_den d e : wf d -> Forall unreserved (boxes d) -> remove_cups d = Ok e -> den I e == den I d.
  Proof.
    intros W U' E. unfold remove_cups in E. destruct (first_pass W U') as (a & Ea & (Wa & Da & Ca) & Pa & La & Ua). rewrite Ea in E. cbn [bind] in E.
    destruct (compress_spec Wa Ua) as (b & Eb & Wb & Db & Cb & Ab & Pb & Lb & _). rewrite Eb in E. cbn [bind] in E.
    assert (Hb : All (fun x => step_ok (l_box x)) (layers b)) by (eapply All_impl; [|exact Ab]; intros x; apply cbox_ok).
    rewrite (once_den Wb Hb E), (compress_den Wa Ua Eb). exact (once_den W (All_fst (user_ok W U')) Ea).
  Qed.
End Den.

(** the rewriter's own boxes stand for pairs of nested cups, whatever the user's interpretation says of their name *)
Section Own.
  Variable C : smc.
  Variable I : interp C.
  Hypothesis T : turns I.
  Notation ob := (obt C (obi I)).
  Definition rv_of (p q : atom) : bool := negb (ty_eqb [p] [rot_atom (-1) q]).
  Definition pair_ok (p q : atom) : bool := ty_eqb [p] [rot_atom (-1) q] || ty_eqb [p] [rot_atom 1 q].
  Lemma pair_ok_cup p q : pair_ok p q = true -> box_ok (Cup p q (rv_of p q)).
  Proof.
    unfold pair_ok, rv_of. destruct (ty_eqb_spec [p] [rot_atom (-1) q]) as [E|E]; cbn [orb negb].
    - intros _. injection E as ->. reflexivity.
    - intro H. apply ty_eqb_iff in H. injection H as ->. reflexivity.
  Qed.
  Lemma cup_pair_ok p q rv : box_ok (Cup p q rv) -> pair_ok p q = true /\ rv_of p q = rv.
  Proof.
    intro O. apply cup_rv in O. subst p. unfold pair_ok, rv_of. destruct rv; cbn [side].
    - destruct (ty_eqb_spec [rot_atom 1 q] [rot_atom (-1) q]) as [E|E]; [exfalso; injection E as E; lia|]. rewrite ty_eqb_refl. auto.
    - rewrite ty_eqb_refl. auto.
  Qed.
  Definition own (b : box) : Hom C :=
    match b with
    | Box n [p0; p1; p2; p3] [] Z0 =>
        if String.eqb n CUP_TOKEN && (pair_ok p0 p3 && pair_ok p1 p2)
        then cmp C (tns C (idm C (ob [p0])) (tns C (ari I (Cup p1 p2 (rv_of p1 p2))) (idm C (ob [p3])))) (ari I (Cup p0 p3 (rv_of p0 p3)))
        else ari I b
    | _ => ari I b
    end.
  Lemma own_cases b : own b = ari I b \/ exists p0 p1 p2 p3, b = Box CUP_TOKEN [p0; p1; p2; p3] [] 0 /\ pair_ok p0 p3 = true /\ pair_ok p1 p2 = true /\
    own b = cmp C (tns C (idm C (ob [p0])) (tns C (ari I (Cup p1 p2 (rv_of p1 p2))) (idm C (ob [p3])))) (ari I (Cup p0 p3 (rv_of p0 p3))).
  Proof.
    destruct b as [n d c z| | | | | | | |]; auto. destruct d as [|p0 [|p1 [|p2 [|p3 [|]]]]]; auto. destruct c; auto. destruct z; auto. cbn [own].
    destruct (String.eqb_spec n CUP_TOKEN) as [->|]; auto. destruct (pair_ok p0 p3) eqn:E1; auto. destruct (pair_ok p1 p2) eqn:E2; auto. right. exists p0, p1, p2, p3. auto.
  Qed.
  Lemma own_ty b : box_ok b -> src C (own b) = ob (b_dom b) /\ tgt C (own b) = ob (b_cod b).
  Proof.
    intro O. destruct (own_cases b) as [->|(p0 & p1 & p2 & p3 & -> & O1 & O2 & ->)]; [split; [apply ari_src|apply ari_tgt]; exact O|].
    apply pair_ok_cup in O1, O2. assert (X1 := ari_src _ I _ O1). assert (X2 := ari_tgt _ I _ O1). assert (X3 := ari_src _ I _ O2). assert (X4 := ari_tgt _ I _ O2). cbn [b_dom b_cod b_end obt] in *. rewrite ?ot_unit_r in *.
    split; st.
  Qed.
  Definition ownI : interp C := @Interp C (obi I) own (fun b O => proj1 (own_ty O)) (fun b O => proj2 (own_ty O)).
  Lemma own_unres b : unreserved b -> own b = ari I b.
  Proof. intro N. destruct (own_cases b) as [E|(p0 & p1 & p2 & p3 & -> & _)]; [exact E|]. cbn in N. now destruct N. Qed.
  Lemma own_nc rv t : nested_cups ownI rv t = nested_cups I rv t.
  Proof. induction t as [|a t IH]; cbn [nested_cups]; [reflexivity|]. rewrite IH. reflexivity. Qed.
  Lemma own_turns rv b : unreserved b -> box_ok b ->
    slides ownI rv (b_dom b) (b_cod b) (ari ownI b) (ari ownI (b_rotate (side rv) (b_dagger b))) /\
    slides ownI rv (rot (- side rv) (b_cod b)) (rot (- side rv) (b_dom b)) (ari ownI (b_rotate (- side rv) (b_dagger b))) (ari ownI b).
  Proof.
    intros N O. unfold slides. rewrite !own_nc. cbn [ari obi ownI]. rewrite !own_unres by (try exact N; now apply unres_rotate, unres_dagger). exact (T rv O).
  Qed.
  Lemma own_den d : Forall unreserved (boxes d) -> den ownI d = den I d.
  Proof.
    unfold den, boxes. induction (layers d) as [|[[l b] r] ls IH]; intro F; cbn [den_layers]; [reflexivity|]. cbn in F. inversion F; subst. rewrite IH by assumption. cbn [den_layer ari obi ownI]. rewrite own_unres by assumption. reflexivity.
  Qed.
  Lemma remove_cups_den d e : wf d -> Forall unreserved (boxes d) -> remove_cups d = Ok e -> heq C (den I e) (den I d).
  Proof.
    intros W N E. assert (Ne : Forall unreserved (boxes e)).
    { unfold remove_cups in E. destruct (first_pass W N) as (a & Ea & (Wa & Da & Ca) & Pa & La & Ua). rewrite Ea in E. cbn [bind] in E.
      destruct (compress_spec Wa Ua) as (b & Eb & Wb & Db & Cb & Ab & Pb & Lb & _). rewrite Eb in E. cbn [bind] in E.
      assert (Hb : All (fun x => step_ok (l_box x)) (layers b)) by (eapply All_impl; [|exact Ab]; intros x; apply cbox_ok). apply (once_sound Wb Hb E). }
    rewrite <- (own_den Ne), <- (own_den N). apply rewrite_den; auto.
    - apply own_turns.
    - intros p0 p1 p2 p3 rv0 rv1 O0 O1. destruct (cup_pair_ok O0) as (K1 & K2). destruct (cup_pair_ok O1) as (K3 & K4).
      cbn [ari obi ownI own]. rewrite String.eqb_refl, K1, K3, K2, K4. reflexivity.
  Qed.
  Lemma first_pass_den d a : wf d -> Forall unreserved (boxes d) -> remove_cups_once d = Ok a -> heq C (den I a) (den I d).
  Proof.
    intros W N E. destruct (first_pass W N) as (a' & Ea & _ & _ & _ & Ua). rewrite E in Ea. injection Ea as <-. rewrite <- (own_den Ua), <- (own_den N). apply (once_den own_turns); auto.
    - intros p0 p1 p2 p3 rv0 rv1 O0 O1. destruct (cup_pair_ok O0) as (K1 & K2). destruct (cup_pair_ok O1) as (K3 & K4).
      cbn [ari obi ownI own]. rewrite String.eqb_refl, K1, K3, K2, K4. reflexivity.
    - exact (All_fst (user_ok W N)).
  Qed.
End Own.
