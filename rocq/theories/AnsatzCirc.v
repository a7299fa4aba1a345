(** The circuit of each ansatz is the list of gates of AnsatzSpec.v. *)
From Coq Require Import QArith.
From Verif Require Import PyBase PyFacts TyModel DiagModel GDiag GDiagSpec GDiagFacts QModel QSpec QFacts QPlace QApply QGen TnFacts AnsatzModel AnsatzSpec AnsatzFacts.
Close Scope Q_scope. Set Implicit Arguments. Unset Strict Implicit.

Lemma foldM_map S X Y (f : S -> Y -> res S) (g : X -> Y) l : forall s, foldM f (map g l) s = foldM (fun s x => f s (g x)) l s.
Proof. induction l; intros; cbn; auto. destruct (f s (g a)); cbn; auto. Qed.
Lemma nth_error_row X (th : nat -> X) k i : i < k -> nth_error (map th (seq 0 k)) i = Some (th i).
Proof. intros H. apply map_nth_error with (d := i). rewrite (nth_error_nth' _ 0) by now rewrite seq_length. now rewrite seq_nth. Qed.
Lemma row_pos X (th : nat -> X) k i : i < k -> py_index (map th (seq 0 k)) (Z.of_nat i) = Ok (th i).
Proof.
  intros H. unfold py_index. rewrite map_length, seq_length. destruct (Z.ltb_spec (Z.of_nat i) 0); [lia|].
  destruct (Z.leb_spec 0 (Z.of_nat i)); [|lia]. destruct (Z.ltb_spec (Z.of_nat i) (Z.of_nat k)); [|lia]. cbn [andb]. now rewrite Nat2Z.id, nth_error_row.
Qed.
Lemma row_neg X (th : nat -> X) k i : 1 <= i <= k -> py_index (map th (seq 0 k)) (- Z.of_nat i) = Ok (th (k - i)).
Proof.
  intros H. unfold py_index. rewrite map_length, seq_length. destruct (Z.ltb_spec (- Z.of_nat i) 0); [|lia].
  destruct (Z.leb_spec 0 (Z.of_nat k + - Z.of_nat i)); [|lia]. destruct (Z.ltb_spec (Z.of_nat k + - Z.of_nat i) (Z.of_nat k)); [|lia]. cbn [andb].
  replace (Z.to_nat (Z.of_nat k + - Z.of_nat i)) with (k - i) by lia. rewrite nth_error_row by lia. reflexivity.
Qed.
Lemma row_slice X (th : nat -> X) k a b : a <= b <= k -> firstn (b - a) (skipn a (map th (seq 0 k))) = map (fun i => th (a + i)) (seq 0 (b - a)).
Proof.
  intros H. replace k with (a + ((b - a) + (k - b))) by lia. rewrite seq_app, map_app, skipn_app, map_length, seq_length, Nat.sub_diag. rewrite skipn_all2 by (rewrite map_length, seq_length; lia). cbn [skipn app].
  rewrite seq_app, map_app, firstn_app, map_length, seq_length, Nat.sub_diag. cbn [firstn]. rewrite app_nil_r, firstn_all2 by (rewrite map_length, seq_length; lia).
  cbn [Nat.add]. rewrite <- (Nat.add_0_r a) at 1. generalize (b - a) 0. clear. intros m. induction m; intros s; cbn; auto. f_equal. rewrite <- IHm. now rewrite Nat.add_succ_r.
Qed.
Lemma adj_nat (n i : nat) : i <= n -> adj n (Z.of_nat i) = i.
Proof. intros. unfold adj. destruct (Z.ltb_spec (Z.of_nat i) 0); lia. Qed.
Lemma row_to X (th : nat -> X) k b : b <= k -> py_slice (map th (seq 0 k)) None (Some (Z.of_nat b)) = map th (seq 0 b).
Proof. intros. unfold py_slice. rewrite map_length, seq_length, adj_nat by auto. rewrite row_slice by lia. now rewrite Nat.sub_0_r. Qed.
Lemma row_ab X (th : nat -> X) k a b : a <= b <= k -> py_slice (map th (seq 0 k)) (Some (Z.of_nat a)) (Some (Z.of_nat b)) = map (fun i => th (a + i)) (seq 0 (b - a)).
Proof. intros. unfold py_slice. rewrite map_length, seq_length, !adj_nat by lia. now rewrite row_slice. Qed.
Lemma row_from X (th : nat -> X) k a : a <= k -> py_slice (map th (seq 0 k)) (Some (Z.of_nat a)) None = map (fun i => th (a + i)) (seq 0 (k - a)).
Proof. intros. unfold py_slice. rewrite map_length, seq_length, adj_nat by lia. rewrite row_slice; auto. Qed.

Lemma rot_one a p : one_qubit (QRot a p). Proof. repeat split. Qed.
Lemma H_one : one_qubit gH. Proof. repeat split. Qed.
Lemma X_one : one_qubit gX. Proof. repeat split. Qed.
Lemma Z_one : one_qubit gZ. Proof. repeat split. Qed.
Lemma mod_neq n i d : 0 < d < n -> i mod n <> (i + d) mod n.
Proof.
  intros Hd E. pose proof (Nat.mod_upper_bound i n ltac:(lia)) as B. rewrite <- Nat.add_mod_idemp_l in E by lia. revert E. generalize dependent (i mod n). intros r B E.
  destruct (Nat.lt_ge_cases (r + d) n) as [L|L]; [rewrite Nat.mod_small in E by lia; lia|].
  replace (r + d) with ((r + d - n) + 1 * n) in E by lia. rewrite Nat.mod_add in E by lia. rewrite Nat.mod_small in E by lia. lia.
Qed.
Lemma prev_mod n i : n >= 2 -> ((Z.of_nat i - 1) mod Z.of_nat n)%Z = Z.of_nat ((i + (n - 1)) mod n).
Proof. intros. rewrite Nat2Z.inj_mod. replace (Z.of_nat (i + (n - 1))) with (Z.of_nat i - 1 + 1 * Z.of_nat n)%Z by lia. now rewrite Z.mod_add by lia. Qed.
Lemma next_mod n i : ((Z.of_nat i + 1) mod Z.of_nat n)%Z = Z.of_nat (S i mod n).
Proof. rewrite Nat2Z.inj_mod. f_equal. lia. Qed.
Lemma map_gates_ctl (n : nat) (is : list nat) g (c t : nat -> nat) : flat_map (fun i => [(g i, [c i], t i)]) is = ctl is g c t :> list (qbox * list nat * nat).
Proof. unfold ctl. now rewrite flat_map_one. Qed.
(** a loop of controlled gates *)
Lemma built_loop n is g (c t : nat -> nat) (f : qdiag -> nat -> res qdiag) :
  (forall i, In i is -> one_qubit (g i) /\ c i < n /\ t i < n /\ c i <> t i /\ forall d, f d i = apply_gate d (QCtl (g i) 1) [Z.of_nat (c i); Z.of_nat (t i)]) ->
  forall d gs, built n d gs -> exists d', foldM f is d = Ok d' /\ built n d' (gs ++ ctl is g c t).
Proof.
  intros H d gs B. rewrite <- (map_gates_ctl n). apply built_fold; auto. intros i Hi d0 gs0 B0. destruct (H i Hi) as (H1 & H2 & H3 & H4 & H5). rewrite H5. now apply built_ctl.
Qed.
Lemma column_row n (a : raxis) th : built n (column (map (QRot a) (map th (seq 0 n)))) (each n (fun q => QRot a (th q))).
Proof. rewrite map_map. apply built_each. intros. apply rot_one. Qed.
Lemma bind_ok X Y (x : X) (f : X -> res Y) : bind (Ok x) f = f x. Proof. reflexivity. Qed.
Ltac step_then B1 B2 c B := let E := fresh in destruct (built_then B1 B2) as (c & E & B); rewrite E, ?bind_ok; clear E.

Section Rows.
  Variables (n layers : nat) (th : nat -> nat -> param). Hypothesis Hn : n >= 2.
  Notation rows k := (map (fun l => map (th l) (seq 0 k)) (seq 0 layers)).
  Lemma iqp_built : exists c, iqp_circuit layers n (rows (n - 1)) = Ok c /\ built n c (ansatz_gates IQP layers n th).
  Proof.
    unfold iqp_circuit. assert (BH : built n (column (repeat gH n)) (each n (fun _ => gH))).
    { replace (repeat gH n) with (map (fun _ : nat => gH) (seq 0 n)); [apply built_each; intros; apply H_one|]. rewrite map_const, seq_length. reflexivity. }
    rewrite foldM_map.
    assert (Loop : forall d gs, built n d gs -> exists d', foldM (fun c l => let thetas := map (th l) (seq 0 (n - 1)) in
        do rotations <- foldM (fun r i => do t <- py_index thetas (Z.of_nat i); qthen r (qtensor (qtensor (Idn i) (qb (CRot AZ t))) (Idn (n - 2 - i)))) (seq 0 (n - 1)) (Idn n);
        do hr <- qthen (column (repeat gH n)) rotations; qthen c hr) (seq 0 layers) d = Ok d' /\ built n d' (gs ++ flat_map (fun l => layer_gates IQP n l (th l)) (seq 0 layers))).
    { apply built_fold. intros l _ c gs B. cbv zeta.
      destruct (@built_fold n nat (fun r i => do t <- py_index (map (th l) (seq 0 (n - 1))) (Z.of_nat i); qthen r (qtensor (qtensor (Idn i) (qb (CRot AZ t))) (Idn (n - 2 - i))))
         (fun i => [(QRot AZ (th l i), [i], S i)]) (seq 0 (n - 1))) with (c := Idn n) (gs := @nil (qbox * list nat * nat)) as (r & Er & Br).
      - intros i Hi c0 gs0 B0. apply in_seq in Hi. rewrite row_pos by lia. cbn [bind].
        set (lay := qtensor (qtensor (Idn i) (qb (CRot AZ (th l i)))) (Idn (n - 2 - i))).
        assert (Bl : built n lay [(QRot AZ (th l i), [i], S i)]).
        { assert (Ll : glayers lay = [(qubits i, CRot AZ (th l i), qubits (n - 2 - i))]). { unfold lay. cbn. unfold gext. cbn. rewrite app_nil_r. reflexivity. }
          split; [|rewrite Ll; split].
          - replace (qubits n) with ((qubits i ++ qubits 2) ++ qubits (n - 2 - i)) by (rewrite !qubits_app; f_equal; lia).
            apply gtyped_tensor; [apply gtyped_tensor|]; try apply gtyped_id. now apply gtyped_box'.
          - repeat constructor. discriminate.
          - cbn [map]. unfold gate_of. cbn [gl_box gl_left fst snd CRot ctl_base place]. cbn. rewrite len_qubits. repeat f_equal. lia. }
        destruct (built_then B0 Bl) as (c1 & E1 & B1). exists c1. split; auto.
      - apply built_id.
      - rewrite Er. cbn [bind app] in *. rewrite (map_gates_ctl n (seq 0 (n - 1)) (fun i => QRot AZ (th l i)) (fun i => i) S) in Br. step_then BH Br h Bh. destruct (built_then B Bh) as (c' & E' & B'). exists c'. split; auto. }
    destruct (Loop _ _ (built_id n)) as (c & Ec & Bc). cbv zeta in Ec. rewrite Ec. cbn [bind app] in *. unfold ansatz_gates. destruct layers; cbn [Nat.ltb Nat.leb].
    - exists c. split; [reflexivity|]. now rewrite app_nil_r.
    - destruct (built_then Bc BH) as (c' & E' & B'). exists c'. split; auto.
  Qed.
  Lemma plain_built k (f : qdiag -> list param -> res qdiag) m : (forall L, ansatz_gates k L n th = flat_map (fun l => layer_gates k n l (th l)) (seq 0 L) ++ []) ->
    (forall l c gs, built n c gs -> exists c', f c (map (th l) (seq 0 m)) = Ok c' /\ built n c' (gs ++ layer_gates k n l (th l))) ->
    exists c, foldM f (rows m) (Idn n) = Ok c /\ built n c (ansatz_gates k layers n th).
  Proof.
    intros HG H. rewrite HG, app_nil_r, foldM_map. apply (@built_fold n nat (fun s x => f s (map (th x) (seq 0 m))) (fun l => layer_gates k n l (th l)) (seq 0 layers)) with (gs := []); [|apply built_id].
    intros l _ c gs B. now apply H.
  Qed.
  Lemma sim14_built : exists c, sim14_circuit n (rows (4 * n)) = Ok c /\ built n c (ansatz_gates Sim14 layers n th).
  Proof.
    unfold sim14_circuit. apply plain_built; [reflexivity|]. intros l c gs B. rewrite row_to by lia.
    replace (2 * Z.of_nat n)%Z with (Z.of_nat (2 * n)) by lia. replace (3 * Z.of_nat n)%Z with (Z.of_nat (3 * n)) by lia. rewrite row_ab by lia. replace (3 * n - 2 * n) with n by lia.
    match goal with |- context [foldM ?f (seq 0 n) ?dd] => destruct (@built_loop n (seq 0 n) (fun i => QRot AX (th l (n + i))) (fun i => i) (fun i => (i + (n - 1)) mod n) f) with (d := dd) (gs := each n (fun q => QRot AY (th l q))) as (s1 & E1 & B1) end.
    { intros i Hi. apply in_seq in Hi. repeat split; try lia. - apply Nat.mod_upper_bound. lia. - rewrite <- (@Nat.mod_small i n) at 1 by lia. apply mod_neq. lia.
      - intros d. rewrite <- Nat2Z.inj_add, row_pos by lia. cbn [bind]. now rewrite prev_mod. }
    { apply column_row. }
    rewrite E1. cbn [bind].
    match goal with |- context [foldM ?f (rev (seq 1 n)) ?dd] => destruct (@built_loop n (rev (seq 1 n)) (fun i => QRot AX (th l (4 * n - i))) (fun i => i mod n) (fun i => S i mod n) f) with (d := dd) (gs := each n (fun q => QRot AY (th l (2 * n + q)))) as (s2 & E2 & B2) end.
    { intros i Hi. apply in_rev, in_seq in Hi. repeat split; try lia. - apply Nat.mod_upper_bound. lia. - apply Nat.mod_upper_bound. lia. - rewrite <- Nat.add_1_r. apply mod_neq. lia.
      - intros d. rewrite row_neg by lia. cbn [bind]. now rewrite next_mod, <- Nat2Z.inj_mod. }
    { rewrite map_map. apply built_each. intros; apply rot_one. }
    rewrite E2. cbn [bind]. step_then B1 B2 s Bs. destruct (built_then B Bs) as (c' & E' & B'). exists c'. split; auto. cbn [layer_gates]. rewrite <- app_assoc in B'. exact B'.
  Qed.
  Lemma sim15_built : exists c, sim15_circuit n (rows (2 * n)) = Ok c /\ built n c (ansatz_gates Sim15 layers n th).
  Proof.
    unfold sim15_circuit. apply plain_built; [reflexivity|]. intros l c gs B. rewrite row_to by lia. rewrite row_from by lia. replace (2 * n - n) with n by lia.
    match goal with |- context [foldM ?f (seq 0 n) ?dd] => destruct (@built_loop n (seq 0 n) (fun i => gX) (fun i => i) (fun i => (i + (n - 1)) mod n) f) with (d := dd) (gs := each n (fun q => QRot AY (th l q))) as (s1 & E1 & B1) end.
    { intros i Hi. apply in_seq in Hi. repeat split; try lia. - apply Nat.mod_upper_bound. lia. - rewrite <- (@Nat.mod_small i n) at 1 by lia. apply mod_neq. lia.
      - intros d. now rewrite prev_mod. }
    { apply column_row. }
    rewrite E1. cbn [bind].
    match goal with |- context [foldM ?f (rev (seq 1 n)) ?dd] => destruct (@built_loop n (rev (seq 1 n)) (fun i => gX) (fun i => i mod n) (fun i => S i mod n) f) with (d := dd) (gs := each n (fun q => QRot AY (th l (n + q)))) as (s2 & E2 & B2) end.
    { intros i Hi. apply in_rev, in_seq in Hi. repeat split; try lia. - apply Nat.mod_upper_bound. lia. - apply Nat.mod_upper_bound. lia. - rewrite <- Nat.add_1_r. apply mod_neq. lia.
      - intros d. now rewrite next_mod, <- Nat2Z.inj_mod. }
    { rewrite map_map. apply built_each. intros; apply rot_one. }
    rewrite E2. cbn [bind]. step_then B1 B2 s Bs. destruct (built_then B Bs) as (c' & E' & B'). exists c'. split; auto. cbn [layer_gates]. rewrite <- app_assoc in B'. exact B'.
  Qed.
  Lemma sim4_built : exists c, sim4_circuit n (rows (3 * n - 1)) = Ok c /\ built n c (ansatz_gates Sim4 layers n th).
  Proof.
    unfold sim4_circuit. apply plain_built; [reflexivity|]. intros l c gs B. rewrite row_to by lia. replace (2 * Z.of_nat n)%Z with (Z.of_nat (2 * n)) by lia. rewrite row_ab by lia. replace (2 * n - n) with n by lia.
    step_then B (@column_row n AX (th l)) c1 B1. rewrite map_map. step_then B1 (@built_each n (fun q => QRot AZ (th l (n + q))) (fun q => rot_one AZ _)) c2 B2.
    match goal with |- context [foldM ?f (seq 0 (n - 1)) ?dd] => destruct (@built_loop n (seq 0 (n - 1)) (fun i => QRot AX (th l (2 * n + i))) (fun i => i) S f) with (d := dd) (gs := @nil (qbox * list nat * nat)) as (s1 & E3 & B3) end.
    { intros i Hi. apply in_seq in Hi. repeat split; try lia. intros d. rewrite <- Nat2Z.inj_add, row_pos by lia. cbn [bind]. now rewrite Z.add_1_r, <- Nat2Z.inj_succ. }
    { apply built_id. }
    rewrite E3. cbn [bind app] in *. destruct (built_then B2 B3) as (c' & E' & B'). exists c'. split; auto. cbn [layer_gates]. rewrite <- !app_assoc in B'. exact B'.
  Qed.
  Lemma sim9_built k g : (k = Sim9Cx /\ g = gX) \/ (k = Sim9 /\ g = gZ) -> exists c, sim9_circuit (QCtl g 1) n (rows n) = Ok c /\ built n c (ansatz_gates k layers n th).
  Proof.
    intros Hk. unfold sim9_circuit. assert (G : one_qubit g) by (destruct Hk as [[_ ->]|[_ ->]]; [apply X_one|apply Z_one]).
    apply plain_built; [destruct Hk as [[-> _]|[-> _]]; reflexivity|]. intros l c gs B.
    step_then B (@built_each n (fun _ => gH) (fun _ => H_one)) c1 B1.
    match goal with |- context [foldM ?f (seq 0 (n - 1)) ?dd] => destruct (@built_loop n (seq 0 (n - 1)) (fun i => g) (fun i => i) S f) with (d := dd) (gs := @nil (qbox * list nat * nat)) as (s1 & E3 & B3) end.
    { intros i Hi. apply in_seq in Hi. split; auto. repeat split; try lia. intros d. now rewrite Z.add_1_r, <- Nat2Z.inj_succ. }
    { apply built_id. }
    rewrite E3. cbn [bind app] in *. step_then B1 B3 c2 B2. destruct (built_then B2 (@column_row n AX (th l))) as (c' & E' & B'). exists c'. split; auto.
    rewrite <- !app_assoc in B'. destruct Hk as [[-> ->]|[-> ->]]; exact B'.
  Qed.
  Lemma strent_step_ok rs l : ranges_ok (StrEnt rs) layers n -> l < layers -> exists z, strent_step rs n l = Ok z /\ (forall j, ((Z.of_nat j + z) mod Z.of_nat n)%Z = Z.of_nat ((j + offset rs n l) mod n)) /\ 0 < offset rs n l < n.
  Proof.
    intros R Hl. unfold strent_step, offset. destruct rs as [rs|]; cbn [ranges_ok] in R.
    - destruct R as [L F]. destruct (nth_error rs l) as [r|] eqn:E; [|apply nth_error_None in E; lia]. rewrite (nth_error_nth _ _ 0%Z E).
      rewrite Forall_forall in F. destruct (F r (nth_error_In _ _ E)) as [F1 F2]. unfold py_index. destruct (Z.ltb_spec (Z.of_nat l) 0); [lia|].
      destruct (Z.leb_spec 0 (Z.of_nat l)); [|lia]. destruct (Z.ltb_spec (Z.of_nat l) (Z.of_nat (List.length rs))); [|lia]. cbn [andb]. rewrite Nat2Z.id, E. cbn [bind].
      destruct (Z.leb_spec (Z.of_nat n) r); [lia|]. exists r. pose proof (Z.mod_pos_bound r (Z.of_nat n) ltac:(lia)). split; auto. split; [|lia].
      intros j. rewrite Nat2Z.inj_mod, Nat2Z.inj_add, Z2Nat.id by lia. now rewrite Z.add_mod_idemp_r by lia.
    - eexists. split; [reflexivity|]. pose proof (Nat.mod_upper_bound l (n - 1) ltac:(lia)). split; [|split; [lia|now lia]]. intros j. revert H. generalize (l mod (n - 1)). intros m Hm. rewrite Nat2Z.inj_mod. f_equal. lia.
  Qed.
  Lemma strent_built rs : ranges_ok (StrEnt rs) layers n -> exists c, strent_circuit rs layers n (rows (3 * n)) = Ok c /\ built n c (ansatz_gates (StrEnt rs) layers n th).
  Proof.
    intros R. unfold strent_circuit.
    assert (EG : ansatz_gates (StrEnt rs) layers n th = [] ++ flat_map (fun l => layer_gates (StrEnt rs) n l (th l)) (seq 0 layers)) by (unfold ansatz_gates; rewrite app_nil_r; reflexivity).
    rewrite EG. apply built_fold; [|apply built_id]. intros l Hl c gs B. apply in_seq in Hl.
    match goal with |- context [foldM ?f (seq 0 n) c] => destruct (@built_fold n nat f (fun q => [(QRot AZ (th l (3 * q)), [], q); (QRot AY (th l (3 * q + 1)), [], q); (QRot AZ (th l (3 * q + 2)), [], q)]) (seq 0 n)) with (c := c) (gs := gs) as (c1 & E1 & B1) end; auto.
    { intros j Hj c0 gs0 B0. apply in_seq in Hj. rewrite (@row_pos _ (fun l => map (th l) (seq 0 (3 * n))) layers l) by lia. cbn [bind].
      replace (Z.of_nat j * 3)%Z with (Z.of_nat (3 * j)) by lia. replace (Z.of_nat (3 * j) + 3)%Z with (Z.of_nat (3 * j + 3)) by lia. rewrite row_ab by lia. replace (3 * j + 3 - 3 * j) with 3 by lia.
      pose proof (fun i Hi => @row_pos _ (fun i => th l (3 * j + i)) 3 i Hi) as RP. pose proof (RP 0 ltac:(lia)) as R0. pose proof (RP 1 ltac:(lia)) as R1. pose proof (RP 2 ltac:(lia)) as R2. change (Z.of_nat 0) with 0%Z in R0. change (Z.of_nat 1) with 1%Z in R1. change (Z.of_nat 2) with 2%Z in R2. rewrite R0, Nat.add_0_r. cbn [bind].
      destruct (@built_one n c0 gs0 (QRot AZ (th l (3 * j))) j) as (ca & Ea & Ba); auto; [apply rot_one|lia|]. rewrite Ea. cbn [bind]. rewrite R1. cbn [bind].
      destruct (@built_one n ca _ (QRot AY (th l (3 * j + 1))) j Ba) as (cb & Eb & Bb); auto; [apply rot_one|lia|]. rewrite Eb. cbn [bind]. rewrite R2. cbn [bind].
      destruct (@built_one n cb _ (QRot AZ (th l (3 * j + 2))) j Bb) as (cc & Ecc & Bc); auto; [apply rot_one|lia|]. exists cc. split; auto. rewrite <- !app_assoc in Bc. exact Bc. }
    rewrite E1. cbn [bind]. destruct (@strent_step_ok rs l R) as (z & Ez & Hz & Ho); [lia|]. rewrite Ez. cbn [bind].
    match goal with |- context [foldM ?f (seq 0 n) ?dd] => destruct (@built_loop n (seq 0 n) (fun i => gX) (fun i => i) (fun i => (i + offset rs n l) mod n) f) with (d := dd) (gs := gs ++ flat_map (fun q => [(QRot AZ (th l (3 * q)), [], q); (QRot AY (th l (3 * q + 1)), [], q); (QRot AZ (th l (3 * q + 2)), [], q)]) (seq 0 n)) as (s1 & E2 & B2) end; auto.
    { intros i Hi. apply in_seq in Hi. repeat split; try lia. - apply Nat.mod_upper_bound. lia. - rewrite <- (@Nat.mod_small i n) at 1 by lia. now apply mod_neq.
      - intros d. now rewrite Hz. }
    rewrite E2. exists s1. split; auto. cbn [layer_gates]. now rewrite <- app_assoc in B2.
  Qed.
End Rows.

Lemma reshape_rows X (f : nat -> X) k : forall layers s, reshape layers k (map f (seq s (layers * k))) = map (fun l => map (fun i => f (s + l * k + i)) (seq 0 k)) (seq 0 layers).
Proof.
  induction layers as [|L IH]; intros s; [reflexivity|]. cbn [reshape Nat.mul]. rewrite seq_app, map_app.
  assert (E : List.length (map f (seq s k)) = k) by now rewrite map_length, seq_length.
  rewrite firstn_app, E, Nat.sub_diag. cbn [firstn]. rewrite app_nil_r, firstn_all2 by lia. rewrite skipn_app, E, Nat.sub_diag. cbn [skipn]. rewrite skipn_all2 by lia. cbn [app].
  rewrite IH. cbn [seq map]. f_equal.
  - rewrite Nat.mul_0_l, Nat.add_0_r. clear. rewrite <- (Nat.add_0_r s) at 1. generalize 0. induction k; intros j; cbn; auto. f_equal. rewrite <- IHk. now rewrite Nat.add_succ_r.
  - rewrite <- seq_shift, map_map. apply map_ext. intros l. apply map_ext. intros i. f_equal. cbn. lia.
Qed.
Lemma circuit_built A n th : n >= 2 -> ranges_ok (a_kind A) (a_layers A) n -> exists c, circuit A n (map (fun l => map (th l) (seq 0 (row_length (a_kind A) n))) (seq 0 (a_layers A))) = Ok c /\
  built n c (ansatz_gates (a_kind A) (a_layers A) n th).
Proof.
  intros Hn R. unfold circuit, row_length. destruct (a_kind A).
  - now apply iqp_built.
  - now apply sim14_built.
  - now apply sim15_built.
  - now apply sim4_built.
  - now apply strent_built.
  - apply sim9_built; auto.
  - apply sim9_built; auto.
Qed.
