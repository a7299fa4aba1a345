(** Controlled gates act on the qubits reported for them (proofs only). *)
From Coq Require Import QArith.
From Verif Require Import PyBase PyFacts DiagModel DiagPerm GDiag GDiagSpec GDiagFacts QModel QSpec QFacts.
Close Scope Q_scope.
Set Implicit Arguments. Unset Strict Implicit.

Lemma on_qubits_ctl m c d : on_qubits m c -> on_qubits (m + Z.abs_nat d) (QCtl c d).
Proof. intros [D C]. unfold on_qubits. cbn. rewrite D, len_qubits. auto. Qed.

Section K.
  Variable K : Type. Variable base : qbox -> oper K.
  Notation arr := (q_array base).
  Lemma op_swap_local : local_op 2 2 (@op_swap K).
  Proof. intros psi phi H x L. destruct x as [|a [|b [|? ?]]]; try discriminate. cbn. now apply H. Qed.
  Lemma ctl_at_local d m (u : oper K) : d <> 0%Z -> local_op m m u -> local_op (m + Z.abs_nat d) (m + Z.abs_nat d) (ctl_at d m u).
  Proof.
    intros Hd Hu psi phi H x L. unfold ctl_at. destruct (Z.ltb_spec 0 d).
    - destruct (bit_of 0 x); [|now apply H]. apply Hu; [|rewrite skipn_length; lia]. intros y Ly. apply H. rewrite app_length, firstn_length. lia.
    - destruct (bit_of _ x); [|now apply H]. apply Hu; [|rewrite firstn_length; lia]. intros y Ly. apply H. rewrite app_length, skipn_length. lia.
  Qed.
  (** nested controls over a gate with equal input and output qubits *)
  Fixpoint ctl_ok (b : qbox) : Prop := match b with QCtl c d => d <> 0%Z /\ ctl_ok c | _ => exists m, on_qubits m b end.
  Lemma ctl_ok_qubits b : ctl_ok b -> on_qubits (List.length (q_dom b)) b.
  Proof.
    induction b; cbn [ctl_ok]; try (intros (m & H1 & H2); unfold on_qubits; rewrite H1, H2, len_qubits; auto; fail).
    intros [Hd Hc]. specialize (IHb Hc). cbn [q_dom]. rewrite repeat_length. now apply on_qubits_ctl.
  Qed.
  Lemma array_spec b : interp_ok base -> ctl_ok b ->
    local_op (List.length (q_dom b)) (List.length (q_dom b)) (arr b) /\
    match b with QCtl c d => forall psi x, List.length x = List.length (q_dom b) -> arr b psi x = ctl_at d (List.length (q_dom c)) (arr c) psi x | _ => True end.
  Proof.
    intros HI. induction b; cbn [ctl_ok]; intros Hok;
      try (split; [|exact I]; cbn [q_array]; destruct Hok as (m & D & C); match goal with |- context [base ?B] => specialize (HI B); rewrite D, C in HI; rewrite D; exact HI end).
    - destruct Hok as [Hd Hc]. destruct (IHb Hc) as [Hl _]. clear IHb. set (m := List.length (q_dom b)) in *.
      assert (OQ : on_qubits m b) by now apply ctl_ok_qubits.
      assert (S : forall psi x, List.length x = List.length (q_dom (QCtl b distance)) -> arr (QCtl b distance) psi x = ctl_at distance m (arr b) psi x).
      { intros psi x. cbn [q_dom]. rewrite repeat_length. fold m. intro Lx. cbn [q_array]. destruct (Z.eqb_spec distance 1) as [->|Hd1].
        - unfold ctl_at, op_ctl1. cbn. destruct x as [|[] y]; cbn; auto. 
        - destruct (@decompose_ctl_spec K b distance m (fun b' => match b' with QSwap _ _ => @op_swap K | _ => op_ctl1 (arr b) end) (arr b)) as (dg & E & T & R); auto.
          rewrite E. apply R. lia. }
      split; [|exact S]. intros psi phi H x Lx. rewrite !S by auto. cbn [q_dom] in *. rewrite repeat_length in *. eapply ctl_at_local; eauto.
    - split; [|exact I]. cbn. apply op_swap_local.
  Qed.

  (** controls and target of nested controls, at an offset *)
  Fixpoint place (b : qbox) (off : nat) : list nat * nat :=
    match b with
    | QCtl c d => if (0 <? d)%Z then let '(cs, t) := place c (off + Z.to_nat d) in (off :: cs, t)
                  else let '(cs, t) := place c off in (cs ++ [off + List.length (q_dom c) + Z.abs_nat d - 1], t)
    | _ => ([], off)
    end.
  Lemma one_qubit_ok b : one_qubit (ctl_base b) -> dists_nonzero b -> ctl_ok b.
  Proof. induction b; cbn; intros [H1 H2] H; try (exists 1; exact H1). destruct H. split; auto. apply IHb; auto. split; auto. Qed.
  Lemma split3 l n (x : list bool) : l + n <= List.length x -> exists a y c, x = a ++ y ++ c /\ List.length a = l /\ List.length y = n.
  Proof.
    intro H. exists (firstn l x), (firstn n (skipn l x)), (skipn n (skipn l x)). rewrite !firstn_skipn. split; auto.
    rewrite !firstn_length, skipn_length. lia.
  Qed.
  Lemma set_bit_mid a b c y : set_bit (List.length a) y (a ++ b :: c) = a ++ y :: c.
  Proof.
    unfold set_bit. rewrite firstn_app, firstn_all, Nat.sub_diag. cbn [firstn]. rewrite app_nil_r. f_equal. f_equal.
    replace (S (List.length a)) with (List.length a + 1) by lia. rewrite skipn_app, skipn_all2 by lia. replace (_ + 1 - _) with 1 by lia. reflexivity.
  Qed.
  Lemma bit_mid a b c : bit_of (List.length a) (a ++ b :: c) = b.
  Proof. unfold bit_of. now rewrite nth_middle. Qed.
  Lemma on_one (u : oper K) off psi x : local_op 1 1 u -> off < List.length x -> on_wires off 1 1 u psi x = gate_at u [] off psi x.
  Proof.
    intros Hu L. destruct (@split3 off 1 x) as (a & y & c & -> & La & Ly); [lia|]. destruct y as [|y [|? ?]]; try discriminate.
    rewrite on_wires_mid by auto. unfold gate_at. cbn [forallb]. subst off. cbn [app]. rewrite bit_mid. apply Hu; auto.
    intros z Lz. destruct z as [|z [|? ?]]; try discriminate. cbn [hd app]. now rewrite set_bit_mid.
  Qed.
  Lemma on_ctl_pos d m (u : oper K) off psi x : local_op m m u -> (0 < d)%Z -> off + (m + Z.abs_nat d) <= List.length x ->
    on_wires off (m + Z.abs_nat d) (m + Z.abs_nat d) (ctl_at d m u) psi x = if bit_of off x then on_wires (off + Z.to_nat d) m m u psi x else psi x.
  Proof.
    intros Hu Hd L. destruct (@split3 off (Z.to_nat d) x) as (a & y1 & c' & -> & La & Ly1); [lia|].
    destruct (@split3 0 m c') as (e & y2 & c & -> & Le & Ly2). { rewrite !app_length in L. lia. } destruct e; [|discriminate]. cbn [app].
    rewrite (app_assoc y1 y2 c), on_wires_mid; [|auto|rewrite app_length; lia].
    rewrite <- (app_assoc y1 y2 c). rewrite (app_assoc a y1). rewrite (@on_wires_mid K (off + Z.to_nat d) m m u psi (a ++ y1) y2 c); [|rewrite app_length; lia|auto].
    unfold ctl_at. destruct (Z.ltb_spec 0 d); [|lia]. destruct y1 as [|b0 y1]; [cbn in Ly1; lia|]. cbn [app]. cbn [bit_of nth]. rewrite <- !app_assoc. subst off. cbn [app]. rewrite bit_mid.
    unfold bit_of. cbn [nth]. destruct b0; auto. rewrite <- Ly1. cbn [List.length firstn skipn]. rewrite firstn_app, skipn_app, firstn_all, skipn_all, Nat.sub_diag. cbn [firstn skipn app]. rewrite app_nil_r.
    apply Hu; auto. intros y Ly. now rewrite <- !app_assoc.
  Qed.
  Lemma on_ctl_neg d m (u : oper K) off psi x : local_op m m u -> (d < 0)%Z -> off + (m + Z.abs_nat d) <= List.length x ->
    on_wires off (m + Z.abs_nat d) (m + Z.abs_nat d) (ctl_at d m u) psi x = if bit_of (off + m + Z.abs_nat d - 1) x then on_wires off m m u psi x else psi x.
  Proof.
    intros Hu Hd L. destruct (@split3 off m x) as (a & y1 & c' & -> & La & Ly1); [lia|].
    destruct (@split3 0 (Z.abs_nat d) c') as (e & y2 & c & -> & Le & Ly2). { rewrite !app_length in L. lia. } destruct e; [|discriminate]. cbn [app].
    rewrite (app_assoc y1 y2 c), on_wires_mid; [|auto|rewrite app_length; lia].
    rewrite <- (app_assoc y1 y2 c). rewrite (@on_wires_mid K off m m u psi a y1 (y2 ++ c)); [|auto|auto].
    unfold ctl_at. destruct (Z.ltb_spec 0 d); [lia|]. destruct (exists_last (l:=y2)) as (y3 & b0 & ->); [intros ->; cbn in Ly2; lia|].
    rewrite app_length in Ly2. cbn [List.length] in Ly2.
    replace (bit_of (m + Z.abs_nat d - 1) (y1 ++ y3 ++ [b0])) with b0.
    2:{ rewrite app_assoc. replace (m + Z.abs_nat d - 1) with (List.length (y1 ++ y3)) by (rewrite app_length; lia). now rewrite bit_mid. }
    replace (bit_of (off + m + Z.abs_nat d - 1) (a ++ y1 ++ (y3 ++ [b0]) ++ c)) with b0.
    2:{ rewrite <- (app_assoc y3), (app_assoc y1), (app_assoc a). replace (off + m + Z.abs_nat d - 1) with (List.length (a ++ y1 ++ y3)) by (rewrite !app_length; lia). cbn [app]. now rewrite bit_mid. }
    destruct b0; [|now rewrite <- !app_assoc]. subst m. rewrite firstn_app, skipn_app, firstn_all, skipn_all, Nat.sub_diag. cbn [firstn skipn app]. rewrite app_nil_r.
    apply Hu; auto. intros y Ly. now rewrite <- !app_assoc.
  Qed.
  Lemma place_sem b : interp_ok base -> one_qubit (ctl_base b) -> dists_nonzero b -> forall off psi x, off + List.length (q_dom b) <= List.length x ->
    on_wires off (List.length (q_dom b)) (List.length (q_cod b)) (arr b) psi x = gate_at (arr (ctl_base b)) (fst (place b off)) (snd (place b off)) psi x.
  Proof.
    intros HI. assert (Base : forall b, on_qubits 1 b -> match b with QCtl _ _ => False | _ => True end -> place b = (fun off => ([], off)) -> forall off psi x, off + List.length (q_dom b) <= List.length x ->
      on_wires off (List.length (q_dom b)) (List.length (q_cod b)) (arr b) psi x = gate_at (arr b) (fst (place b off)) (snd (place b off)) psi x).
    { intros b0 OQ Hb Ep off psi x L. rewrite Ep. cbn [fst snd]. destruct OQ as [D C]. rewrite D, C, ?len_qubits in *. cbn [List.length qubits repeat] in *. apply on_one; [|lia].
      destruct (@array_spec b0) as [Hl _]; auto; [destruct b0; try contradiction; exists 1; split; auto|]. rewrite D in Hl. exact Hl. }
    induction b; cbn [ctl_base dists_nonzero]; intros [OQ Hb] Hd; try (apply Base; auto; fail).
    destruct Hd as [Hd0 Hd]. clear Base. assert (OK : ctl_ok (QCtl b distance)) by (apply one_qubit_ok; [split; auto|split; auto]).
    intros off psi x L. destruct (array_spec HI OK) as [_ S]. destruct OK as [_ OKb]. destruct (array_spec HI OKb) as [Hl _]. cbn [q_dom q_cod] in *. rewrite !repeat_length in *.
    rewrite (@on_wires_ext K off _ _ _ (ctl_at distance (List.length (q_dom b)) (arr b))); [|intros; now apply S|lia].
    assert (IH := fun off => IHb (conj OQ Hb) Hd off psi x). pose proof (ctl_ok_qubits OKb) as [_ Cb]. rewrite Cb, len_qubits in IH.
    cbn [place]. destruct (Z.ltb_spec 0 distance).
    - rewrite on_ctl_pos by (auto; lia). specialize (IH (off + Z.to_nat distance)). destruct (place b (off + Z.to_nat distance)) as [cs t]. cbn [fst snd] in *. rewrite IH by lia.
      unfold gate_at. cbn [forallb]. destruct (bit_of off x); reflexivity.
    - rewrite on_ctl_neg by (auto; lia). specialize (IH off). destruct (place b off) as [cs t]. cbn [fst snd] in *. rewrite IH by lia.
      unfold gate_at. rewrite forallb_app. cbn [forallb]. destruct (bit_of (off + _ + _ - 1) x); rewrite ?andb_true_r, ?andb_false_r; reflexivity.
  Qed.
  (** exported indices *)
  Lemma rel_idx_ctl c d : rel_idx (QCtl c d) = rel_step (rel_idx c) d.
  Proof. unfold rel_idx. cbn [ctl_dists rev]. rewrite fold_left_app. reflexivity. Qed.
  Lemma fold_max_spec l : forall a, (forall x, In x l -> x <= fold_left Z.max l a)%Z /\ (a <= fold_left Z.max l a)%Z /\ (fold_left Z.max l a = a \/ In (fold_left Z.max l a) l).
  Proof.
    induction l as [|y l IH]; intro a; cbn; [repeat split; [contradiction|lia|auto]|]. destruct (IH (Z.max a y)) as (H1 & H2 & H3). repeat split.
    - intros x [<-|H]; [lia|auto].
    - lia.
    - destruct H3 as [H3|H3]; [|auto]. rewrite H3. destruct (Z.max_spec a y) as [[? ->]|[? ->]]; auto.
  Qed.
  Lemma insert_m1_snoc l x t : insert_m1 (l ++ [t]) x = l ++ [x; t].
  Proof. unfold insert_m1. rewrite rev_app_distr. cbn. now rewrite rev_involutive. Qed.
  Lemma rel_place b : one_qubit (ctl_base b) -> dists_nonzero b -> forall off,
    let '(cs, t) := place b off in map (fun i => (Z.of_nat off + i)%Z) (rel_idx b) = map Z.of_nat (cs ++ [t]) /\
    NoDup (cs ++ [t]) /\ (forall i, In i (cs ++ [t]) -> off <= i < off + List.length (q_dom b)) /\
    In (off + List.length (q_dom b) - 1) (cs ++ [t]) /\ 1 <= List.length (q_dom b).
  Proof.
    induction b; cbn [ctl_base dists_nonzero]; intros [OQ Hb] Hd off;
      try (cbn [place app]; destruct OQ as [D C]; rewrite D, len_qubits; cbn; rewrite Z.add_0_r; repeat split; auto; try lia; try (constructor; auto; constructor); fail).
    destruct Hd as [Hd0 Hd]. cbn [place q_dom]. rewrite repeat_length. rewrite rel_idx_ctl. unfold rel_step. destruct (Z.ltb_spec 0 distance).
    - specialize (IHb (conj OQ Hb) Hd (off + Z.to_nat distance)). destruct (place b (off + Z.to_nat distance)) as [cs t]. destruct IHb as (E & ND & R & M & L). cbn [app map]. repeat split.
      + rewrite Z.add_0_r. f_equal. rewrite <- E, map_map. apply map_ext. intro i. lia.
      + constructor; auto. intro Hi. apply R in Hi. lia.
      + destruct H0 as [<-|Hi]; [lia|]. apply R in Hi. lia.
      + destruct H0 as [<-|Hi]; [lia|]. apply R in Hi. lia.
      + right. replace (off + (List.length (q_dom b) + Z.abs_nat distance) - 1) with (off + Z.to_nat distance + List.length (q_dom b) - 1) by lia. exact M.
      + lia.
    - specialize (IHb (conj OQ Hb) Hd off). destruct (place b off) as [cs t]. destruct IHb as (E & ND & R & M & L). set (m := List.length (q_dom b)) in *.
      assert (EM : fold_left Z.max (rel_idx b) 0%Z = Z.of_nat (m - 1)).
      { destruct (fold_max_spec (rel_idx b) 0%Z) as (H1 & H2 & H3).
        assert (Q : forall z, In z (rel_idx b) <-> exists i, In i (cs ++ [t]) /\ (Z.of_nat off + z = Z.of_nat i)%Z).
        { intro z. split.
          - intro Hz. assert (In (Z.of_nat off + z)%Z (map Z.of_nat (cs ++ [t]))) by (rewrite <- E; now apply (in_map (fun i => (Z.of_nat off + i)%Z))).
            apply in_map_iff in H0 as (i & Hi & Hin). exists i. split; auto.
          - intros (i & Hi & Ez). assert (In (Z.of_nat i) (map (fun i => (Z.of_nat off + i)%Z) (rel_idx b))) by (rewrite E; now apply in_map).
            apply in_map_iff in H0 as (z' & Ez' & Hin). replace z with z' by lia. exact Hin. }
        assert (Hm : In (Z.of_nat (m - 1)) (rel_idx b)) by (apply Q; exists (off + m - 1); split; auto; lia).
        apply H1 in Hm. destruct H3 as [H3|H3]; [lia|]. apply Q in H3 as (i & Hi & Ei). apply R in Hi. lia. }
      rewrite EM. assert (exists rc rt, rel_idx b = rc ++ [rt]) as (rc & rt & Er).
      { destruct (exists_last (l:=rel_idx b)) as (rc & rt & ->); eauto. intro Hn. rewrite Hn in E. destruct cs; discriminate. }
      rewrite Er in *. rewrite insert_m1_snoc. rewrite !map_app in E. cbn [map] in E. apply app_inj_tail in E as [E1 E2]. rewrite <- app_assoc. cbn [app]. repeat split.
      + rewrite !map_app. cbn [map]. rewrite E1, E2. f_equal. f_equal. lia.
      + apply NoDup_Add with (a := off + m + Z.abs_nat distance - 1) (l := cs ++ [t]); [|split; auto].
        * change (cs ++ [off + m + Z.abs_nat distance - 1; t]) with (cs ++ (off + m + Z.abs_nat distance - 1) :: [t]). apply Add_app.
        * intro Hi. apply R in Hi. lia.
      + apply in_app_iff in H0 as [Hi|[<-|[<-|[]]]]; [|lia|].
        * assert (Ht : In i (cs ++ [t])) by (apply in_app_iff; auto). apply R in Ht. lia.
        * assert (Ht : In t (cs ++ [t])) by (apply in_app_iff; cbn; auto). apply R in Ht. lia.
      + apply in_app_iff in H0 as [Hi|[<-|[<-|[]]]]; [|lia|].
        * assert (Ht : In i (cs ++ [t])) by (apply in_app_iff; auto). apply R in Ht. lia.
        * assert (Ht : In t (cs ++ [t])) by (apply in_app_iff; cbn; auto). apply R in Ht. lia.
      + apply in_app_iff. right. left. lia.
      + lia.
  Qed.
End K.
