(** Proofs: pulling a qubit through layers. *)
From Coq Require Import QArith.
From Verif Require Import PyBase PyFacts GDiag GDiagSpec GDiagFacts QModel QSpec QFacts CirModel CirSpec CirList QReadSpec.
Close Scope Q_scope. Set Implicit Arguments. Unset Strict Implicit.
Notation qchain := (gchain q_dom q_cod).
Notation len := List.length.

(** ** controlled boxes *)
Lemma shf_id q p : p < q -> shf q p = p. Proof. unfold shf. intro H. now apply Nat.ltb_lt in H as ->. Qed.
Lemma shf_S q p : q <= p -> shf q p = S p. Proof. unfold shf. intro H. destruct (Nat.ltb_spec p q); auto; lia. Qed.
Lemma base_one b : base_gate b -> len (q_dom b) = 1 /\ q_cod b = q_dom b /\ match b with QCtl _ _ | QKet _ | QBra _ | QDisc | QSwap _ _ => False | _ => True end.
Proof. intros (H1 & H2 & H3). rewrite H1, H2. auto. Qed.
Lemma base_positions b k : base_gate b -> positions b k = [k] /\ (forall P q, bump_dists b P q = b) /\ ctl_dists b = [] /\ ctl_base b = b.
Proof. intros H. apply base_one in H as (H1 & H2 & H3). destruct b; try contradiction; cbn [positions]; rewrite ?H1; repeat split. Qed.
Lemma left_wire b : left_controls b -> has_wire b /\ 1 <= len (q_dom b).
Proof.
  induction b; cbn [left_controls has_wire]; intro H; try (apply base_one in H as (H & _); split; [exact I|lia]).
  destruct H as (H & L). destruct (IHb L) as (W & O). split; [split; [auto|split; [lia|auto]]|]. cbn [q_dom]. rewrite repeat_length. lia.
Qed.
Lemma min_nonneg l : Forall (fun z => 0 <= z)%Z l -> fold_left Z.min l 0%Z = 0%Z.
Proof. induction l as [|z l IH]; intro H; cbn; auto. inversion H; subst. rewrite Z.min_l by lia. auto. Qed.
Lemma sum_nonneg l : Forall (fun z => 0 <= z)%Z l -> (0 <= fold_right Z.add 0 l)%Z.
Proof. induction 1; cbn; lia. Qed.
Lemma offsets_nonneg ds : Forall (fun z => 0 <= z)%Z ds -> forall acc, Forall (fun z => 0 <= z)%Z acc ->
  Forall (fun z => 0 <= z)%Z (fold_left (fun ds d => ds ++ [(d + fold_right Z.add 0 ds)%Z]) ds acc).
Proof.
  induction 1 as [|d ds Hd H IH]; intros acc HA; cbn [fold_left]; auto. apply IH. apply Forall_app. split; auto. constructor; auto. pose proof (sum_nonneg HA). lia.
Qed.
Lemma left_dists b : left_controls b -> Forall (fun z => 0 <= z)%Z (ctl_dists b).
Proof. induction b; cbn [left_controls ctl_dists]; intro H; auto. constructor; [lia|]. now apply IHb. Qed.
Lemma bump_left b : left_controls b -> forall k q,
  (q <= k -> bump_dists b (Z.of_nat k) (Z.of_nat q) = b) /\
  (k < q -> q < k + len (q_dom b) -> let b' := bump_dists b (Z.of_nat k) (Z.of_nat q) in
     len (q_dom b') = S (len (q_dom b)) /\ positions b' k = map (shf q) (positions b k) /\ left_controls b' /\ ctl_base b' = ctl_base b).
Proof.
  assert (Base : forall b, base_gate b -> forall k q,
    (q <= k -> bump_dists b (Z.of_nat k) (Z.of_nat q) = b) /\
    (k < q -> q < k + len (q_dom b) -> let b' := bump_dists b (Z.of_nat k) (Z.of_nat q) in
     len (q_dom b') = S (len (q_dom b)) /\ positions b' k = map (shf q) (positions b k) /\ left_controls b' /\ ctl_base b' = ctl_base b)).
  { intros b0 H k q. split; [intros _; now apply (base_positions k H)|]. apply base_one in H as (H & _). lia. }
  induction b; cbn [left_controls]; intro H; try (apply Base; exact H). clear Base.
  destruct H as (D & L). intros k q. cbn [bump_dists q_dom]. rewrite repeat_length.
  replace (Z.of_nat k + distance)%Z with (Z.of_nat (k + Z.to_nat distance)) by lia. set (c := k + Z.to_nat distance). destruct (IHb L c q) as (I1 & I2).
  destruct (left_wire L) as (HW & OW). assert (PR := positions_range HW).
  split.
  - intro Q. rewrite I1 by (unfold c; lia). f_equal. destruct (Z.ltb_spec (Z.of_nat k) (Z.of_nat q)); [lia|]. cbn [andb]. destruct (Z.ltb_spec (Z.of_nat c) (Z.of_nat q)); [lia|]. now rewrite andb_false_r.
  - intros Q1 Q2. cbv zeta. destruct (Z.ltb_spec (Z.of_nat k) (Z.of_nat q)); [|lia]. cbn [andb]. destruct (Z.leb_spec (Z.of_nat q) (Z.of_nat c)).
    + rewrite I1 by lia. cbn [q_dom positions left_controls ctl_base]. rewrite repeat_length. split; [lia|]. destruct (Z.ltb_spec 0 (distance + 1)); [|lia]. destruct (Z.ltb_spec 0 distance); [|lia].
      split; [|auto with zarith]. cbn [map]. rewrite shf_id by auto. f_equal. replace (k + Z.to_nat (distance + 1)) with (S c) by (unfold c; lia). rewrite positions_S. fold c.
      apply map_ext_in. intros p I. apply PR in I. rewrite shf_S; lia.
    + destruct (Z.leb_spec (Z.of_nat q) (Z.of_nat k)); [lia|]. cbn [andb]. destruct I2 as (E1 & E2 & E3 & E4); [lia|unfold c; lia|]. cbn [q_dom positions left_controls ctl_base]. rewrite repeat_length.
      split; [lia|]. destruct (Z.ltb_spec 0 distance); [|lia]. split; [|auto]. cbn [map]. rewrite shf_id by auto. f_equal. exact E2.
Qed.
Lemma pull_ctl_ok b k q : same_side b -> k < q -> q < k + len (q_dom b) ->
  len (q_dom (pull_ctl b k q)) = S (len (q_dom b)) /\ positions (pull_ctl b k q) k = map (shf q) (positions b k) /\ same_side (pull_ctl b k q) /\ ctl_base (pull_ctl b k q) = ctl_base b.
Proof.
  intros [H|H] Q1 Q2; unfold pull_ctl.
  - unfold ctl_offsets. rewrite min_nonneg by (apply offsets_nonneg; [now apply left_dists|repeat constructor; lia]). change (- 0 + Z.of_nat k)%Z with (Z.of_nat k).
    destruct (bump_left H k q) as (_ & I). destruct (I Q1 Q2) as (E1 & E2 & E3 & E4). repeat split; auto. now left.
  - assert (One : forall c d, (d < 0)%Z -> base_gate c -> q < k + len (q_dom (QCtl c d)) ->
      let b' := bump_dists (QCtl c d) (- fold_left Z.min (ctl_offsets (QCtl c d)) 0 + Z.of_nat k)%Z (Z.of_nat q) in
      len (q_dom b') = S (len (q_dom (QCtl c d))) /\ positions b' k = map (shf q) (positions (QCtl c d) k) /\ same_side b' /\ ctl_base b' = ctl_base (QCtl c d)).
    { intros c d D B. destruct (base_positions k B) as (P & E1 & E2 & E3). cbn [q_dom]. rewrite repeat_length. assert (B0 := B). apply base_one in B as (B1 & B2). rewrite B1. intro Q3. cbv zeta.
      unfold ctl_offsets. cbn [ctl_dists]. rewrite E2. cbn [fold_left app fold_right bump_dists q_dom positions ctl_base]. rewrite ?E1, ?P, ?repeat_length, ?B1. cbn [removelast last app].
      replace (Z.min (Z.min 0 0) (d + (0 + 0)))%Z with d by lia.
      destruct (Z.leb_spec (Z.of_nat q) (- d + Z.of_nat k + d)); [lia|]. rewrite andb_false_r. destruct (Z.leb_spec (Z.of_nat q) (- d + Z.of_nat k)); [|lia]. cbn [andb].
      destruct (Z.ltb_spec (- d + Z.of_nat k + d) (Z.of_nat q)); [|lia]. split; [lia|]. destruct (Z.ltb_spec 0 (d - 1)); [lia|]. destruct (Z.ltb_spec 0 d); [lia|]. cbn [map].
      rewrite (shf_id (p:=k)) by auto. rewrite shf_S by lia. split; [f_equal; lia|]. split; [|auto]. right. unfold right_controls. destruct c; try (split; [lia|exact B0]). all: destruct B2 as (_ & []). }
    unfold right_controls in H. destruct b; try contradiction. destruct b; try (destruct H as (D & B); now apply One).
    rename distance into d, distance0 into d'. destruct H as (D & D' & B). destruct (base_positions k B) as (P & E1 & E2 & E3). cbn [q_dom] in Q2. rewrite !repeat_length in Q2.
    assert (B' := B). apply base_one in B as (B1 & B2). rewrite B1 in Q2. unfold ctl_offsets. cbn [ctl_dists]. rewrite E2. cbn [fold_left app fold_right bump_dists q_dom positions ctl_base]. rewrite ?E1, ?P, ?repeat_length, ?B1. cbn [removelast last app].
    replace (Z.min (Z.min (Z.min 0 0) (d + (0 + 0))) (d' + (0 + (d + (0 + 0) + 0))))%Z with (d + d')%Z by lia.
    destruct (Z.ltb_spec 0 d); [lia|]. destruct (Z.ltb_spec 0 d'); [lia|]. cbn [removelast last app map].
    rewrite (shf_id (p:=k)) by auto. rewrite (shf_S (p:=k + (1 + Z.abs_nat d' + Z.abs_nat d - 1))) by lia.
    destruct (Z.leb_spec (Z.of_nat q) (- (d + d') + Z.of_nat k + d)).
    + rewrite (shf_S (p:=k + (1 + Z.abs_nat d' - 1))) by lia.
      destruct (Z.ltb_spec (- (d + d') + Z.of_nat k) (Z.of_nat q)); [lia|]. cbn [andb]. destruct (Z.leb_spec (Z.of_nat q) (- (d + d') + Z.of_nat k)); [|lia]. cbn [andb].
      destruct (Z.ltb_spec (- (d + d') + Z.of_nat k + d) (Z.of_nat q)); [lia|]. cbn [andb].
      destruct (Z.leb_spec (Z.of_nat q) (- (d + d') + Z.of_nat k + d + d')); [lia|]. rewrite ?andb_false_r.
      destruct (Z.ltb_spec (- (d + d') + Z.of_nat k + d + d') (Z.of_nat q)); [|lia]. cbn [andb].
      rewrite ?E1, ?P, ?repeat_length, ?B1. destruct (Z.ltb_spec 0 d); [lia|]. destruct (Z.ltb_spec 0 (d' - 1)); [lia|]. cbn [removelast last app].
      split; [lia|]. split; [f_equal; [lia|f_equal; lia]|]. split; [|auto]. right. cbn [right_controls]. split; [lia|split; [lia|exact B']].
    + rewrite (shf_id (p:=k + (1 + Z.abs_nat d' - 1))) by lia. destruct (Z.ltb_spec (- (d + d') + Z.of_nat k) (Z.of_nat q)); [lia|]. cbn [andb]. destruct (Z.leb_spec (Z.of_nat q) (- (d + d') + Z.of_nat k)); [|lia]. cbn [andb].
      destruct (Z.ltb_spec (- (d + d') + Z.of_nat k + d) (Z.of_nat q)); [|lia]. cbn [andb].
      destruct (Z.leb_spec (Z.of_nat q) (- (d + d') + Z.of_nat k + d + d')); [lia|]. rewrite ?andb_false_r.
      destruct (Z.leb_spec (Z.of_nat q) (- (d + d') + Z.of_nat k + d)); [lia|]. cbn [andb].
      rewrite ?E1, ?P, ?repeat_length, ?B1. destruct (Z.ltb_spec 0 (d - 1)); [lia|]. destruct (Z.ltb_spec 0 d'); [lia|]. cbn [removelast last app].
      split; [lia|]. split; [f_equal; f_equal; lia|]. split; [|auto]. right. cbn [right_controls]. split; [lia|split; [lia|exact B']].
Qed.
