(** Quantum spiders, cups and caps (proofs only). *)
From Coq Require Import Ring_theory Ring QArith.
From Verif Require Import PyBase PyFacts DiagModel DiagPerm GDiag GDiagSpec GDiagFacts QModel QSpec QFacts QPlace QApply QGenSpec QGen.
Close Scope Q_scope.
Set Implicit Arguments. Unset Strict Implicit.

Section R.
  Variables (K : Type) (k0 k1 : K) (kadd kmul ksub : K -> K -> K) (kopp : K -> K) (r2 h : K).
  Hypothesis RT : ring_theory k0 k1 kadd kmul ksub kopp eq.
  Hypothesis RH : kmul r2 h = k1.
  Add Ring KR : RT.
  Variable base : qbox -> oper K.
  Hypothesis HI : interp_ok base.
  Hypothesis HC : concrete k0 kadd kmul ksub r2 h base.
  Notation arr := (q_array base). Notation sem := (sem base).
  Notation spider_op := (spider_op k0 kadd).

  Lemma gd_base b : q_array base b = base b -> q_array base (q_dag b) = base (q_dag b) -> q_dag (q_dag b) = b -> q_dom (q_dag b) = q_cod b -> q_cod (q_dag b) = q_dom b -> gdbox base b.
  Proof. intros E1 E2 H1 H2 H3. unfold gdbox, lbox. rewrite E1, E2. repeat split; auto; apply HI. Qed.
  Lemma gd_H : gdbox base gH. Proof. apply gd_base; reflexivity. Qed.
  Lemma gd_sqrt2 : gdbox base sqrt2. Proof. apply gd_base; reflexivity. Qed.
  Lemma gd_ket b : gdbox base (QKet b). Proof. apply gd_base; reflexivity. Qed.
  Lemma gd_bra b : gdbox base (QBra b). Proof. apply gd_base; reflexivity. Qed.
  Lemma gd_CX : gdbox base gCX.
  Proof.
    assert (L : lbox base gCX). { unfold lbox. destruct (@array_spec K base gCX HI) as [L _]; [cbn; split; [lia|exists 1; split; reflexivity]|exact L]. }
    unfold gdbox. repeat split; auto.
  Qed.
  Lemma bits_eqb_spec x y : reflect (x = y) (bits_eqb x y).
  Proof. unfold bits_eqb. destruct (list_eq_dec Bool.bool_dec x y); constructor; auto. Qed.
  Lemma bits_eqb_cons a x b y : bits_eqb (a :: x) (b :: y) = Bool.eqb a b && bits_eqb x y.
  Proof. destruct (bits_eqb_spec x y), (bits_eqb_spec (a :: x) (b :: y)), a, b; cbn; congruence. Qed.
  Lemma bits_eqb_app a x b y : List.length a = List.length b -> bits_eqb (a ++ x) (b ++ y) = bits_eqb a b && bits_eqb x y.
  Proof.
    revert b; induction a as [|c a IH]; intros [|d b]; try discriminate; cbn [app List.length].
    - intros _. destruct (bits_eqb_spec [] []); [reflexivity|congruence].
    - intros [= E]. rewrite !bits_eqb_cons, IH by auto. now rewrite andb_assoc.
  Qed.
  Lemma repeat_ne n : n <> 0 -> bits_eqb (repeat false n) (repeat true n) = false /\ bits_eqb (repeat true n) (repeat false n) = false.
  Proof. destruct n; [congruence|]. cbn [repeat]. rewrite !bits_eqb_cons. auto. Qed.
  Lemma bits_refl x : bits_eqb x x = true. Proof. destruct (bits_eqb_spec x x); congruence. Qed.
  Lemma spider_11 psi y : List.length y = 1 -> spider_op 1 1 psi y = psi y.
  Proof. destruct y as [|[] [|? ?]]; try discriminate; intros _; unfold QGenSpec.spider_op; cbn [repeat]; rewrite !bits_eqb_cons, !bits_refl; cbn; ring. Qed.
  Lemma sp_1_0 : exists D, qthen (qtensor (qb sqrt2) (qb gH)) (qb (QBra false)) = Ok D /\ sem D [Qb] [] (spider_op 1 0) (spider_op 0 1).
  Proof.
    pose proof (sem_tensor (sem_box gd_sqrt2) (sem_box gd_H)) as T. cbn [q_dom q_cod gH sqrt2 QModel.q1 app List.length] in T.
    specialize (T (proj1 gd_H) (proj1 gd_sqrt2)). destruct (sem_then T (sem_box (gd_bra false))) as (D & E & SS). exists D. split; [exact E|].
    destruct HC as (H1 & H2 & H3 & H4 & H5 & H6).
    eapply sem_ext; [exact SS| |]; intros psi y Ly; cbn [q_dom q_cod List.length] in Ly.
    - destruct y; [|discriminate]. cbn [q_array]. rewrite H5. cbn [skipn firstn]. change (q_array base gH) with (base gH). change (q_array base sqrt2) with (base sqrt2). rewrite H1, !H4. cbn [app]. unfold QGenSpec.spider_op. cbn [repeat]. rewrite bits_refl.
      replace (kmul h (kadd (kmul r2 (psi [false])) (kmul r2 (psi [true])))) with (kmul (kmul r2 h) (kadd (psi [false]) (psi [true]))) by ring. rewrite RH. ring.
    - destruct y as [|b [|? ?]]; try discriminate. cbn [q_dag gH QModel.q1 sqrt2 q_array]. change (base (QScal true 2%Q)) with (base sqrt2). cbn [firstn skipn]. rewrite H4. cbn [app].
      unfold QGenSpec.spider_op. cbn [repeat]. rewrite !bits_eqb_cons, bits_refl, !andb_true_r. change (base (QBox "H" [Qb] [Qb] false true)) with (base gH).
      destruct b; [rewrite H2|rewrite H1]; rewrite !H6; cbn [Bool.eqb].
      + replace (kmul r2 (kmul h (ksub (psi []) k0))) with (kmul (kmul r2 h) (psi [])) by ring. rewrite RH. ring.
      + replace (kmul r2 (kmul h (kadd (psi []) k0))) with (kmul (kmul r2 h) (psi [])) by ring. rewrite RH. ring.
  Qed.
  Lemma sp_2_1 : exists D, qthen (qb gCX) (qtensor (qid [Qb]) (qb (QBra false))) = Ok D /\ sem D [Qb; Qb] [Qb] (spider_op 2 1) (spider_op 1 2).
  Proof.
    pose proof (sem_tensor (sem_id base [Qb]) (sem_box (gd_bra false))) as T. cbn [q_dom q_cod app List.length] in T.
    specialize (T (proj1 (gd_bra false))). destruct (sem_then (sem_box gd_CX) (T (fun p q H x L => H x L))) as (D & E & SS). exists D. split; [exact E|].
    destruct HC as (H1 & H2 & H3 & H4 & H5 & H6).
    eapply sem_ext; [exact SS| |]; intros psi y Ly; cbn [q_dom q_cod List.length] in Ly.
    - destruct y as [|b [|? ?]]; try discriminate. cbn [q_array firstn skipn gCX Z.eqb]. rewrite H5. cbn [app]. change (Pos.eqb 1 1) with true. cbn [op_ctl1]. unfold QGenSpec.spider_op. cbn [repeat]. rewrite !bits_eqb_cons, bits_refl, !andb_true_r.
      destruct b; cbn [Bool.eqb op_ctl1]; change (q_array base gX) with (base gX); rewrite ?H3; cbn; ring.
    - cbn in Ly. destruct y as [|b [|c [|? ?]]]; try discriminate. cbn [q_dag gCX gX QModel.q1 q_array firstn skipn Z.eqb]. change (Pos.eqb 1 1) with true. cbn [op_ctl1].
      unfold QGenSpec.spider_op. cbn [repeat]. rewrite !bits_eqb_cons, bits_refl, !andb_true_r.
      destruct b; cbn [Bool.eqb op_ctl1 andb]; change (base (QBox "X" [Qb] [Qb] false true)) with (base gX); rewrite ?H3; cbn [firstn skipn]; rewrite H6; cbn [app]; destruct c; cbn; ring.
  Qed.
  Lemma spider_then i o psi y : List.length y = o -> spider_op 1 o (spider_op i 1 psi) y = spider_op i o psi y.
  Proof. intros _. unfold QGenSpec.spider_op. cbn [repeat]. rewrite !bits_eqb_cons, !bits_refl. cbn. destruct (bits_eqb y (repeat false o)), (bits_eqb y (repeat true o)); ring. Qed.
  Lemma repeat_snoc (b : bool) n : repeat b (S n) = repeat b n ++ [b]. Proof. apply repeat_cons. Qed.
  Lemma eqb_last y1 y2 b i : List.length y1 = i -> bits_eqb (y1 ++ [y2]) (repeat b (S i)) = bits_eqb y1 (repeat b i) && Bool.eqb y2 b.
  Proof. intros L. rewrite repeat_snoc, bits_eqb_app by (rewrite repeat_length; auto). rewrite bits_eqb_cons, bits_refl. now rewrite andb_true_r. Qed.
  (** the two recursive shapes *)
  Lemma sp_odd A B i : sem A (qubits i) [Qb] (spider_op i 1) (spider_op 1 i) -> sem B [Qb; Qb] [Qb] (spider_op 2 1) (spider_op 1 2) ->
    exists D, qthen (qtensor A (qid [Qb])) B = Ok D /\ sem D (qubits (S i)) [Qb] (spider_op (S i) 1) (spider_op 1 (S i)).
  Proof.
    intros SA SB. pose proof (sem_local SA) as [LA LA']. pose proof (sem_tensor SA (sem_id base [Qb]) (fun p q H x L => H x L) LA') as T.
    destruct (sem_then T SB) as (D & E & SS). exists D. split; [exact E|]. replace (qubits i ++ [Qb]) with (qubits (S i)) in SS by (unfold qubits; apply repeat_cons).
    eapply sem_ext; [exact SS| |]; intros psi y Ly.
    - destruct y as [|b [|? ?]]; try discriminate. unfold QGenSpec.spider_op. cbn [repeat]. rewrite !bits_eqb_cons, !bits_refl, !andb_true_r. cbn [List.length firstn skipn]. rewrite !bits_eqb_cons, !bits_refl. cbn [andb Bool.eqb].
      rewrite <- !repeat_snoc. destruct b; cbn; ring.
    - rewrite len_qubits in *. destruct (exists_last (l:=y)) as (y1 & y2 & ->); [intros ->; discriminate|]. rewrite app_length in Ly. cbn [List.length] in Ly. assert (L : List.length y1 = i) by lia. subst i.
      rewrite skipn_app, firstn_app, skipn_all, firstn_all, Nat.sub_diag. cbn [firstn skipn app]. rewrite app_nil_r. unfold QGenSpec.spider_op. rewrite !eqb_last by auto. cbn [repeat]. rewrite !bits_eqb_cons, !bits_refl.
      destruct (bits_eqb y1 (repeat false (List.length y1))), (bits_eqb y1 (repeat true (List.length y1))), y2; cbn; ring.
  Qed.
  Lemma sp_even A B i : i <> 0 -> sem A (qubits i) [Qb] (spider_op i 1) (spider_op 1 i) -> sem B [Qb; Qb] [Qb] (spider_op 2 1) (spider_op 1 2) ->
    exists D, qthen (qtensor A A) B = Ok D /\ sem D (qubits (i + i)) [Qb] (spider_op (i + i) 1) (spider_op 1 (i + i)).
  Proof.
    intros Hi SA SB. pose proof (sem_local SA) as [LA LA']. pose proof (sem_tensor SA SA LA LA') as T.
    destruct (sem_then T SB) as (D & E & SS). exists D. split; [exact E|]. rewrite qubits_app in SS.
    eapply sem_ext; [exact SS| |]; intros psi y Ly.
    - destruct y as [|b [|? ?]]; try discriminate. unfold QGenSpec.spider_op. cbn [repeat]. rewrite !bits_eqb_cons, !bits_refl, !andb_true_r. cbn [List.length firstn skipn]. rewrite !bits_eqb_cons, !bits_refl. cbn [andb Bool.eqb].
      rewrite <- !repeat_app. destruct b; cbn; ring.
    - rewrite len_qubits in *. destruct (split_at Ly) as (y1 & y2 & -> & L1 & L2).
      rewrite skipn_app, firstn_app, skipn_all2, firstn_all2, <- L1, Nat.sub_diag by lia. cbn [firstn skipn app]. rewrite app_nil_r. rewrite L1.
      unfold QGenSpec.spider_op. rewrite !repeat_app, !bits_eqb_app by now rewrite repeat_length. cbn [repeat app]. rewrite !bits_eqb_cons, !bits_refl. cbn [Bool.eqb andb].
      assert (NE : repeat false i <> repeat true i) by (destruct i; [congruence|discriminate]).
      destruct (bits_eqb_spec y2 (repeat false i)) as [E1|N1], (bits_eqb_spec y1 (repeat false i)) as [E2|N2], (bits_eqb_spec y1 (repeat true i)) as [E3|N3], (bits_eqb_spec y2 (repeat true i)) as [E4|N4]; try (exfalso; congruence); cbn [andb]; ring.
  Qed.
  Lemma spider_col n : forall i fuel, i = S n -> fuel > i -> exists D, generate_spider fuel [Qb] i 1 = Ok D /\ sem D (qubits i) [Qb] (spider_op i 1) (spider_op 1 i).
  Proof.
    induction n as [n IH] using lt_wf_ind. intros i fuel Ei Hf. destruct fuel as [|f]; [lia|]. cbn [generate_spider].
    destruct (Nat.eqb_spec i 1) as [->|H1]; cbn [andb Nat.eqb].
    - exists (qid [Qb]). split; auto. eapply sem_ext; [apply sem_id| |]; intros psi y Ly; symmetry; apply spider_11; auto.
    - change (wires_eqb [Qb] []) with false. change (wires_eqb [Qb] [Qb]) with true. cbn [negb]. destruct (Nat.eqb_spec i 2) as [->|H2]; [apply sp_2_1|].
      destruct (Nat.ltb_spec i 1); [lia|].
      assert (E2 : exists B, generate_spider f [Qb] 2 1 = Ok B /\ sem B [Qb; Qb] [Qb] (spider_op 2 1) (spider_op 1 2)). { destruct f; [lia|]. cbn [generate_spider Nat.eqb andb]. apply sp_2_1. }
      destruct E2 as (B & EB & SB). rewrite EB. destruct (Nat.eqb_spec (i mod 2) 1) as [Hm|Hm].
      + destruct (IH (n - 1) ltac:(lia) (i - 1) f ltac:(lia) ltac:(lia)) as (A & EA & SA). rewrite EA. cbn [bind]. destruct (sp_odd SA SB) as (D & ED & SD). replace (S (i - 1)) with i in SD by lia. eauto.
      + assert (Hi : i = i / 2 + i / 2). { pose proof (Nat.div_mod i 2 ltac:(lia)). pose proof (Nat.mod_upper_bound i 2 ltac:(lia)). lia. }
        destruct (IH (i / 2 - 1) ltac:(lia) (i / 2) f ltac:(lia) ltac:(lia)) as (A & EA & SA). rewrite EA. cbn [bind]. destruct (@sp_even A B (i / 2) ltac:(lia) SA SB) as (D & ED & SD). rewrite <- Hi in SD. eauto.
  Qed.
  (** [o <= 1 <> i] or [i = 0 = o - 1] etc.: all leg counts *)
  Lemma spider_row o fuel : fuel > S o -> exists D, generate_spider fuel [Qb] 1 o = Ok D /\ sem D [Qb] (qubits o) (spider_op 1 o) (spider_op o 1).
  Proof.
    intros Hf. destruct (Nat.eq_dec o 1) as [->|H1]; [apply (@spider_col 0 1 fuel); lia|]. destruct fuel as [|f]; [lia|]. cbn [generate_spider]. rewrite Nat.eqb_refl. rewrite (proj2 (Nat.eqb_neq o 1) H1). cbn [andb].
    change (wires_eqb [Qb] []) with false. change (wires_eqb [Qb] [Qb]) with true. cbn [negb]. destruct (Nat.eqb_spec o 0) as [->|H0]; [apply sp_1_0|]. cbn [andb Nat.eqb].
    destruct (Nat.ltb_spec 1 o); [|lia]. destruct (@spider_col (o - 1) o f) as (D & E & SS); [lia|lia|]. rewrite E. cbn [rmap]. exists (qdagger D). split; auto. now apply sem_dagger.
  Qed.
  Lemma spider_all i o fuel : fuel > S (S (S (i + o))) -> exists D, generate_spider fuel [Qb] i o = Ok D /\ sem D (qubits i) (qubits o) (spider_op i o) (spider_op o i).
  Proof.
    intros Hf. destruct (Nat.eq_dec i 1) as [->|Hi]; [apply spider_row; lia|]. destruct (Nat.eq_dec o 1) as [->|Ho].
    { destruct i as [|i]; [|apply (@spider_col i); lia]. destruct fuel as [|[|f]]; try lia. cbn [generate_spider Nat.eqb andb]. change (wires_eqb [Qb] []) with false. change (wires_eqb [Qb] [Qb]) with true. cbn [negb Nat.ltb Nat.leb].
      destruct sp_1_0 as (D & E & SS). rewrite E. cbn [rmap]. exists (qdagger D). split; auto. now apply sem_dagger. }
    assert (G : forall i o f, i <> 1 -> o <> 1 -> o <= i -> f > S (i + o) -> exists D, generate_spider (S f) [Qb] i o = Ok D /\ sem D (qubits i) (qubits o) (spider_op i o) (spider_op o i)).
    { clear i o fuel Hf Hi Ho. intros i o f Hi Ho Hle Hf. cbn [generate_spider]. rewrite (proj2 (Nat.eqb_neq i 1) Hi). cbn [andb]. change (wires_eqb [Qb] []) with false. change (wires_eqb [Qb] [Qb]) with true. cbn [negb].
      rewrite (proj2 (Nat.eqb_neq o 1) Ho), andb_false_r. destruct (Nat.ltb_spec i o); [lia|]. cbn [negb].
      assert (EA : exists A, generate_spider f [Qb] i 1 = Ok A /\ sem A (qubits i) [Qb] (spider_op i 1) (spider_op 1 i)).
      { destruct i as [|i]; [|apply (@spider_col i); lia]. destruct f as [|f]; [lia|]. destruct f as [|f]; [lia|]. cbn [generate_spider Nat.eqb andb]. change (wires_eqb [Qb] []) with false. change (wires_eqb [Qb] [Qb]) with true. cbn [negb Nat.ltb Nat.leb].
        destruct sp_1_0 as (D & E & SS). rewrite E. cbn [rmap]. exists (qdagger D). split; auto. now apply sem_dagger. }
      destruct EA as (A & -> & SA). destruct (@spider_row o f) as (B & -> & SB); [lia|]. cbn [bind]. destruct (sem_then SA SB) as (D & E & SS). exists D. split; auto.
      eapply sem_ext; [exact SS| |]; intros psi y Ly; rewrite len_qubits in Ly; now apply spider_then. }
    destruct (Nat.le_gt_cases o i) as [Hle|Hgt].
    - destruct fuel as [|f]; [lia|]. apply G; auto; lia.
    - destruct fuel as [|f]; [lia|]. destruct f as [|f]; [lia|]. destruct (G o i f) as (D & E & SS); [lia..|]. exists (qdagger D). split; [|now apply sem_dagger].
      remember (S f) as f' eqn:Ef'. cbn [generate_spider]. rewrite (proj2 (Nat.eqb_neq i 1) Hi). cbn [andb]. change (wires_eqb [Qb] []) with false. change (wires_eqb [Qb] [Qb]) with true. cbn [negb].
      rewrite (proj2 (Nat.eqb_neq o 1) Ho), andb_false_r. destruct (Nat.ltb_spec i o); [|lia]. subst f'. now rewrite E.
  Qed.
  (** ** Cups and caps *)
  Notation cup_op := (cup_op kadd). Notation cap_op := (cap_op k0).
  Lemma loc_id n : local_op n n (fun psi : state K => psi). Proof. intros p q H x L. auto. Qed.
  Definition fsem (D : qdiag) (s t : list wire) (u : oper K) : Prop :=
    qtyped D s t /\ Forall (fun x => lbox base (gl_box x)) (glayers D) /\ (forall psi y, List.length y = List.length t -> q_eval base D psi y = u psi y).
  Lemma fsem_of D s t u u' w : sem D s t u w -> (forall psi y, List.length y = List.length t -> u psi y = u' psi y) -> fsem D s t u'.
  Proof. intros (T & G & U & W) H. split; auto. split; [now apply good_l|]. intros. rewrite U; auto. Qed.
  Lemma atomic_cup_sem : exists D, atomic_cup = Ok D /\ fsem D [Qb; Qb] [] (cup_op 1).
  Proof.
    unfold atomic_cup.
    pose proof (sem_tensor (sem_box gd_H) (sem_box gd_sqrt2) (proj1 gd_sqrt2) (proj1 (proj2 gd_H))) as T1.
    pose proof (sem_tensor T1 (sem_id base [Qb]) (@loc_id 1) (proj2 (sem_local T1))) as T2. cbn [q_dom q_cod gH sqrt2 QModel.q1 app] in T2.
    destruct (sem_then (sem_box gd_CX) T2) as (A & EA & SA). rewrite EA. cbn [bind].
    pose proof (sem_tensor (sem_box (gd_bra false)) (sem_box (gd_bra false)) (proj1 (gd_bra false)) (proj1 (proj2 (gd_bra false)))) as T3. cbn [q_dom q_cod app] in T3.
    destruct (sem_then SA T3) as (D & ED & SD). exists D. split; [exact ED|].
    destruct HC as (H1 & H2 & H3 & H4 & H5 & H6).
    apply (fsem_of SD). intros psi y Ly. destruct y; [|discriminate]. cbn [List.length firstn skipn app].
    change (arr (QBra false)) with (base (QBra false)). change (arr sqrt2) with (base sqrt2). change (arr gH) with (base gH).
    rewrite !H5. cbn [List.length firstn skipn app]. rewrite H4, H1. cbn [gCX q_array]. change (1 =? 1)%Z with true. cbn iota. cbn [op_ctl1]. cbn [app op_ctl1]. change (arr gX) with (base gX). rewrite H3. cbn [negb].
    unfold QGenSpec.cup_op. cbn. replace (kmul r2 (kmul h (kadd (psi [false; false]) (psi [true; true])))) with (kmul (kmul r2 h) (kadd (psi [false; false]) (psi [true; true]))) by ring. rewrite RH. ring.
  Qed.
  Lemma atomic_cap_sem : exists D, atomic_cap = Ok D /\ fsem D [] [Qb; Qb] (cap_op 1).
  Proof.
    unfold atomic_cap.
    pose proof (sem_tensor (sem_box (gd_ket false)) (sem_box (gd_ket false)) (proj1 (gd_ket false)) (proj1 (proj2 (gd_ket false)))) as T3. cbn [q_dom q_cod app] in T3.
    pose proof (sem_tensor (sem_box gd_H) (sem_box gd_sqrt2) (proj1 gd_sqrt2) (proj1 (proj2 gd_H))) as T1.
    pose proof (sem_tensor T1 (sem_id base [Qb]) (@loc_id 1) (proj2 (sem_local T1))) as T2. cbn [q_dom q_cod gH sqrt2 QModel.q1 app] in T2.
    destruct (sem_then T3 T2) as (A & EA & SA). rewrite EA. cbn [bind].
    destruct (sem_then SA (sem_box gd_CX)) as (D & ED & SD). exists D. split; [exact ED|].
    destruct HC as (H1 & H2 & H3 & H4 & H5 & H6).
    apply (fsem_of SD). intros psi y Ly. cbn in Ly. destruct y as [|a [|b [|? ?]]]; try discriminate.
    cbn [gCX q_array]. change (1 =? 1)%Z with true. cbn iota. change (arr (QKet false)) with (base (QKet false)). change (arr sqrt2) with (base sqrt2). change (arr gH) with (base gH). change (arr gX) with (base gX).
    unfold QGenSpec.cap_op. cbn [firstn skipn rev app]. rewrite bits_eqb_cons, bits_refl.
    destruct a; cbn [op_ctl1]; rewrite ?H3; cbn [List.length firstn skipn app]; rewrite H4; [rewrite H2|rewrite H1]; cbn [List.length firstn skipn app]; rewrite !H6; destruct b; cbn [negb Bool.eqb andb]; try ring.
    - cbn [app]. transitivity (kmul (kmul r2 h) (psi [])); [ring|rewrite RH; ring].
    - cbn [app]. transitivity (kmul (kmul r2 h) (psi [])); [ring|rewrite RH; ring].
  Qed.
  Lemma sum_bits_ext n : forall f g, (forall y, List.length y = n -> f y = g y) -> sum_bits kadd n f = sum_bits kadd n g.
  Proof.
    induction n as [|n IH]; intros f g H; cbn [sum_bits]; [apply H; auto|]. rewrite (IH (fun y => f (false :: y)) (fun y => g (false :: y))), (IH (fun y => f (true :: y)) (fun y => g (true :: y))); auto; intros y L; apply H; cbn; now rewrite L.
  Qed.
  Lemma sum_bits_cons n f : sum_bits kadd (S n) f = sum_bits kadd 1 (fun b => sum_bits kadd n (fun y => f (b ++ y))).
  Proof. reflexivity. Qed.
  Lemma fs_app (x y : list bool) k : List.length x = k -> firstn k (x ++ y) = x /\ skipn k (x ++ y) = y.
  Proof. intros <-. rewrite firstn_app, skipn_app, firstn_all, skipn_all, Nat.sub_diag. cbn. now rewrite app_nil_r. Qed.
  (** [then_at] of a circuit with a known operator *)
  Lemma fsem_at D s L t R t' u u' x i : fsem D s (L ++ t ++ R) u -> fsem x t t' u' -> i = Z.of_nat (List.length L) ->
    exists D', qthen_at D x i = Ok D' /\ fsem D' s (L ++ t' ++ R) (fun psi y => u' (fun z => u psi (firstn (List.length L) y ++ z ++ skipn (List.length L + List.length t') y)) (firstn (List.length t') (skipn (List.length L) y))).
  Proof.
    intros (T & G & U) (T' & G' & U') Ei. destruct (gtyped_at wire_eqb_ok T T' Ei) as (D' & E & TD & LD). exists D'. split; auto. split; auto. split.
    { rewrite LD. apply Forall_app. split; auto. apply Forall_map. exact G'. }
    intros psi y Ly. rewrite !app_length in Ly. destruct (@split3 (List.length L) (List.length t') y) as (a & m & c & -> & La & Lm); [lia|]. rewrite !app_length in Ly.
    unfold q_eval. rewrite LD, q_layers_app. destruct T' as (W' & Dx & Cx). rewrite (@layers_ext K base L R _ G' _ _ W') by (rewrite ?Cx; auto).
    assert (FS : forall (x y : list bool) k, List.length x = k -> firstn k (x ++ y) = x /\ skipn k (x ++ y) = y).
    { clear. intros x y k <-. rewrite firstn_app, skipn_app, firstn_all, skipn_all, Nat.sub_diag. cbn. now rewrite app_nil_r. }
    destruct (FS a (m ++ c) _ La) as [-> ->]. destruct (FS m c _ Lm) as [-> _].
    replace (skipn (List.length L + List.length t') (a ++ m ++ c)) with c.
    2:{ rewrite app_assoc. destruct (FS (a ++ m) c (List.length L + List.length t')) as [_ ->]; [rewrite app_length; lia|reflexivity]. }
    fold (q_eval base x). rewrite <- (U' _ m Lm). unfold q_eval. apply (layers_local G' W'); [|now rewrite Cx]. intros z Lz. rewrite Dx in Lz. apply U. rewrite !app_length. lia.
  Qed.
  Lemma fsem_ext D s t u u' : fsem D s t u -> (forall psi y, List.length y = List.length t -> u psi y = u' psi y) -> fsem D s t u'.
  Proof. intros (T & G & U) H. split; auto. split; auto. intros. rewrite U; auto. Qed.
  Lemma bits1 (m : list bool) : List.length m = 1 -> exists b, m = [b]. Proof. destruct m as [|b [|? ?]]; try discriminate; eauto. Qed.
  (** cups: after [k] steps the middle [k] pairs are summed out *)
  Definition cups_mid (k m : nat) : oper K := fun psi x => sum_bits kadd k (fun y => psi (firstn m x ++ y ++ rev y ++ skipn m x)).
  Lemma cup_steps ac : fsem ac [Qb; Qb] [] (cup_op 1) -> forall n k s D, fsem D s (qubits ((n - k) + (n - k))) (cups_mid k (n - k)) -> forall m, k + m <= n ->
    exists D', foldM (fun d i => qthen_at d ac (Z.of_nat n - Z.of_nat i - 1)) (seq k m) D = Ok D' /\ fsem D' s (qubits ((n - (k + m)) + (n - (k + m)))) (cups_mid (k + m) (n - (k + m))).
  Proof.
    intros Hac n k s D HD m. revert k D HD. induction m as [|m IH]; intros k D HD Hm; cbn [seq foldM].
    - rewrite Nat.add_0_r. eauto.
    - set (j := n - k - 1). replace (qubits (n - k + (n - k))) with (qubits j ++ [Qb; Qb] ++ qubits j) in HD.
      2:{ change [Qb; Qb] with (qubits 2). rewrite !qubits_app. f_equal. unfold j. lia. }
      destruct (@fsem_at D s (qubits j) [Qb; Qb] (qubits j) [] _ _ ac (Z.of_nat n - Z.of_nat k - 1)%Z HD Hac) as (D1 & E1 & S1); [rewrite len_qubits; lia|]. rewrite E1. cbn [bind].
      destruct (IH (S k) D1) as (D' & E' & S').
      + replace (n - S k) with j by lia. rewrite <- qubits_app. eapply fsem_ext; [exact S1|]. intros psi y Ly. rewrite !app_length, !len_qubits in Ly. cbn [List.length] in *. destruct (split_at Ly) as (a & b & -> & La & Lb).
        rewrite len_qubits, Nat.add_0_r. cbn [firstn]. rewrite firstn_app, skipn_app, firstn_all2, skipn_all2, <- La, Nat.sub_diag by lia. cbn [firstn skipn app]. rewrite app_nil_r. rewrite La.
        unfold cups_mid at 2. rewrite sum_bits_cons. unfold QGenSpec.cup_op. apply sum_bits_ext. intros z Lz. destruct (bits1 Lz) as [c ->]. unfold cups_mid. apply sum_bits_ext. intros y Ly'.
        cbn [rev app]. f_equal. rewrite firstn_app, firstn_all2, skipn_app, skipn_all2 by lia. replace (n - k - List.length a) with 1 by lia. cbn [firstn skipn app].
        rewrite firstn_app, firstn_all2, skipn_app, skipn_all2, La, Nat.sub_diag by lia. cbn [firstn skipn app]. rewrite app_nil_r, <- !app_assoc. reflexivity.
      + lia.
      + rewrite E'. exists D'. split; auto. now rewrite Nat.add_succ_r.
  Qed.
  Lemma cup_all n : exists D, generate_cup (qubits n) (qubits n) = Ok D /\ fsem D (qubits n ++ qubits n) [] (cup_op n).
  Proof.
    unfold generate_cup. rewrite (proj2 (wires_eqb_ok _ _) eq_refl). cbn [negb]. destruct atomic_cup_sem as (ac & E & Sac). rewrite E. cbn [bind]. rewrite len_qubits.
    destruct (@cup_steps ac Sac n 0 (qubits n ++ qubits n) (qid (qubits n ++ qubits n))) with (m := n) as (D & ED & SD); [|lia|].
    - rewrite Nat.sub_0_r. split; [rewrite qubits_app; apply gtyped_id|]. split; [constructor|]. intros psi y _. unfold cups_mid. cbn. now rewrite firstn_skipn.
    - exists D. split; [exact ED|]. cbn [Nat.add] in SD. rewrite Nat.sub_diag in SD. eapply fsem_ext; [exact SD|]. intros psi y Ly. destruct y; [|discriminate]. unfold cups_mid, QGenSpec.cup_op. apply sum_bits_ext. intros z _. cbn. now rewrite app_nil_r.
  Qed.
  (** caps *)
  Lemma cap_steps ac : fsem ac [] [Qb; Qb] (cap_op 1) -> forall m k s D, fsem D s (qubits (k + k)) (cap_op k) ->
    exists D', foldM (fun d i => qthen_at d ac (Z.of_nat i)) (seq k m) D = Ok D' /\ fsem D' s (qubits ((k + m) + (k + m))) (cap_op (k + m)).
  Proof.
    intros Hac m. induction m as [|m IH]; intros k s D HD; cbn [seq foldM].
    - rewrite Nat.add_0_r. eauto.
    - rewrite <- qubits_app in HD. change (qubits k ++ qubits k) with (qubits k ++ [] ++ qubits k) in HD.
      destruct (@fsem_at D s (qubits k) [] (qubits k) [Qb; Qb] _ _ ac (Z.of_nat k)%Z HD Hac) as (D1 & E1 & S1); [now rewrite len_qubits|]. rewrite E1. cbn [bind].
      destruct (IH (S k) s D1) as (D' & E' & S').
      + replace (qubits (S k + S k)) with (qubits k ++ [Qb; Qb] ++ qubits k). 2:{ change [Qb; Qb] with (qubits 2). rewrite !qubits_app. f_equal. lia. }
        eapply fsem_ext; [exact S1|]. intros psi y Ly. rewrite !app_length, !len_qubits in Ly. cbn [List.length] in Ly. destruct (split_at Ly) as (a & b & -> & La & Lb). destruct b as [|c [|d b]]; try discriminate. cbn [List.length] in Lb.
        rewrite len_qubits. cbn [List.length]. destruct (@fs_app a (c :: d :: b) k La) as [-> ->]. replace (a ++ c :: d :: b) with ((a ++ [c; d]) ++ b) by now rewrite <- app_assoc.
        destruct (@fs_app (a ++ [c; d]) b (k + 2)) as [_ ->]; [rewrite app_length; cbn; lia|]. replace ((a ++ [c; d]) ++ b) with ((a ++ [c]) ++ d :: b) by now rewrite <- !app_assoc.
        unfold QGenSpec.cap_op. destruct (@fs_app (a ++ [c]) (d :: b) (S k)) as [-> ->]; [rewrite app_length; cbn; lia|]. cbn [firstn skipn app rev]. destruct (@fs_app a b k La) as [-> ->].
        rewrite bits_eqb_cons, bits_refl. destruct (bits_eqb_spec a (rev b)) as [Eab|Nab]; destruct (bits_eqb_spec (a ++ [c]) (rev b ++ [d])) as [Ec|Nc]; cbn [andb].
        * apply app_inj_tail in Ec. destruct Ec as [_ ->]. now rewrite Bool.eqb_reflx.
        * destruct (Bool.eqb_spec c d); [exfalso; apply Nc; congruence|reflexivity].
        * apply app_inj_tail in Ec. destruct Ec as [Ea _]. contradiction.
        * rewrite andb_true_r. now destruct (Bool.eqb c d).
      + rewrite E'. exists D'. split; auto. now rewrite Nat.add_succ_r.
  Qed.
  Lemma cap_all n : exists D, generate_cap (qubits n) (qubits n) = Ok D /\ fsem D [] (qubits n ++ qubits n) (cap_op n).
  Proof.
    unfold generate_cap. rewrite (proj2 (wires_eqb_ok _ _) eq_refl). cbn [negb]. destruct atomic_cap_sem as (ac & E & Sac). rewrite E. cbn [bind]. rewrite len_qubits.
    destruct (@cap_steps ac Sac n 0 [] (qid [])) as (D & ED & SD).
    - split; [apply gtyped_id|]. split; [constructor|]. intros psi y Ly. destruct y; [|discriminate]. reflexivity.
    - exists D. split; [exact ED|]. cbn [Nat.add] in SD. now rewrite qubits_app.
  Qed.
End R.
Lemma spider_types fuel t i o :
  generate_spider (S fuel) t 1 1 = Ok (qid t) /\
  (i <> 1 \/ o <> 1 -> generate_spider (S fuel) [] i o = Ok (qid []) /\ (t <> [] -> t <> [Qb] -> generate_spider (S fuel) t i o = Err NotImplementedError)).
Proof.
  split; [reflexivity|]. intro H. assert (E : ((i =? 1) && (o =? 1))%bool = false) by (destruct (Nat.eqb_spec i 1), (Nat.eqb_spec o 1); cbn; tauto).
  split; [cbn [generate_spider]; now rewrite E|]. intros N1 N2. cbn [generate_spider]. rewrite E.
  destruct (wires_eqb t []) eqn:E1; [apply wires_eqb_ok in E1; contradiction|]. destruct (wires_eqb t [Qb]) eqn:E2; [apply wires_eqb_ok in E2; contradiction|]. reflexivity.
Qed.
From Coq Require Import Qcanon.
Definition inst_base : qbox -> oper Qc := fun b psi x =>
  match b with
  | QBox n [Qb] [Qb] false true =>
      if (n =? "H")%string then match x with [b] => Qcmult (Q2Qc (1 # 2)) (if b then Qcminus (psi [false]) (psi [true]) else Qcplus (psi [false]) (psi [true])) | _ => Q2Qc 0 end
      else if (n =? "X")%string then match x with [b] => psi [negb b] | _ => Q2Qc 0 end else Q2Qc 0
  | QScal true _ => match x with [] => Qcmult (Q2Qc 2) (psi []) | _ => Q2Qc 0 end
  | QBra c => psi [c]
  | QKet c => match x with [b] => if Bool.eqb b c then psi [] else Q2Qc 0 | _ => Q2Qc 0 end
  | _ => Q2Qc 0
  end.
Lemma spider_instance : exists base : qbox -> oper Qc, interp_ok base /\ concrete (Q2Qc 0) Qcplus Qcmult Qcminus (Q2Qc 2) (Q2Qc (1 # 2)) base /\
  ring_theory (Q2Qc 0) (Q2Qc 1) Qcplus Qcmult Qcminus Qcopp eq /\ Qcmult (Q2Qc 2) (Q2Qc (1 # 2)) = Q2Qc 1 /\
  rmap gboxes (generate_spider 10 [Qb] 3 2) = Ok [gCX; QBra false; gCX; QBra false; QKet false; gCX].
Proof.
  exists inst_base. split.
  - intros b psi phi H x L. unfold inst_base. destruct b as [n d c m sa| | | | | | | | | |[] v| |]; try reflexivity; cbn in H, L.
    + destruct d as [|[] [|? ?]], c as [|[] [|? ?]], m, sa; try reflexivity. rewrite !H by reflexivity. destruct (n =? "H")%string; [reflexivity|]. destruct (n =? "X")%string; [|reflexivity]. destruct x as [|? [|? ?]]; try reflexivity. now apply H.
    + now rewrite H by reflexivity.
    + now rewrite H by reflexivity.
    + now rewrite H by reflexivity.
  - split; [unfold concrete; repeat split; try reflexivity; destruct b; reflexivity|]. split; [exact Qcrt|]. split; [apply Qc_is_canon; reflexivity|]. vm_compute; reflexivity.
Qed.
