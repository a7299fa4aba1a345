(** [apply_gate] and [Gate.from_box] (proofs only). *)
From Coq Require Import QArith.
From Verif Require Import PyBase PyFacts DiagModel DiagPerm GDiag GDiagSpec GDiagFacts QModel QSpec QFacts QPlace.
Close Scope Q_scope.
Set Implicit Arguments. Unset Strict Implicit.

Lemma py_index_seq off w z : (0 <= z < Z.of_nat w)%Z -> py_index (seq off w) z = Ok (off + Z.to_nat z).
Proof.
  intro H. unfold py_index. rewrite seq_length. destruct (Z.ltb_spec z 0); [lia|]. destruct (Z.leb_spec 0 z); [|lia]. destruct (Z.ltb_spec z (Z.of_nat w)); [|lia]. cbn [andb].
  rewrite (nth_error_nth' _ 0) by (rewrite seq_length; lia). now rewrite seq_nth by lia.
Qed.
Lemma mapM_index off w : forall zs is, map (fun i => (Z.of_nat off + i)%Z) zs = map Z.of_nat is -> (forall i, In i is -> off <= i < off + w) -> mapM (py_index (seq off w)) zs = Ok is.
Proof.
  induction zs as [|z zs IH]; intros [|i is]; cbn; try discriminate; auto. intros [= E1 E2] H. assert (off <= i < off + w) by (apply H; auto).
  rewrite py_index_seq by lia. cbn. rewrite (IH is) by auto. cbn. f_equal. f_equal. lia.
Qed.
Lemma from_box_ctl c d off cs t : one_qubit (ctl_base c) -> dists_nonzero (QCtl c d) -> named_ok (ctl_base c) -> place (QCtl c d) off = (cs, t) ->
  exists ph, from_box (QCtl c d) off = Ok (Gate (gtype (QCtl c d)) (cs ++ [t]) ph false (Some (sorted_nat cs)) (Some t)).
Proof.
  intros H1 H2 H3 HP. pose proof (@rel_place (QCtl c d) H1 H2 off) as R. rewrite HP in R. destruct R as (E & ND & R & _).
  unfold from_box. rewrite (@mapM_index off _ _ _ E R). cbn [bind].
  assert (exists ph, (if ((gtype (QCtl c d)) =? "CRx")%string || ((gtype (QCtl c d)) =? "CRz")%string then ctl_phase c else Ok PhNone) = Ok ph) as (ph & ->).
  { destruct ((_ =? "CRx")%string || _) eqn:Eg; [|eauto]. apply orb_true_iff in Eg. rewrite !String.eqb_eq in Eg. cbn in Eg.
    assert (Q : gtype c = "Rx"%string \/ gtype c = "Rz"%string) by (destruct Eg as [Eg|Eg]; injection Eg; auto).
    destruct c; cbn in H3, Q |- *; eauto; try tauto. destruct Q; discriminate. }
  cbn [bind]. exists ph. unfold last_opt. rewrite rev_app_distr. cbn [rev app]. rewrite removelast_last. reflexivity.
Qed.

Lemma at_qubits d s n w (x : qdiag) i : qtyped d s (qubits n) -> qtyped x (qubits w) (qubits w) -> (0 <= i)%Z -> (i + Z.of_nat w <= Z.of_nat n)%Z ->
  exists c, qthen_at d x i = Ok c /\ qtyped c s (qubits n) /\ glayers c = glayers d ++ map (gext (qubits (Z.to_nat i)) (qubits (n - Z.to_nat i - w))) (glayers x).
Proof.
  intros T X H0 H1. unfold qthen_at. destruct (@gtyped_at wire qbox wire_eqb q_dom q_cod wire_eqb_ok d x s (qubits (Z.to_nat i)) (qubits w) (qubits w) (qubits (n - Z.to_nat i - w)) i) as (c & E & Tc & L); auto.
  - replace (qubits (Z.to_nat i) ++ qubits w ++ qubits (n - Z.to_nat i - w)) with (qubits n); auto. rewrite !qubits_app. f_equal. lia.
  - rewrite len_qubits. lia.
  - exists c. split; auto. split; auto. replace (qubits n) with (qubits (Z.to_nat i) ++ qubits w ++ qubits (n - Z.to_nat i - w)); auto. rewrite !qubits_app. f_equal. lia.
Qed.
Lemma at_gate d s n b i : qtyped d s (qubits n) -> one_qubit (ctl_base b) -> dists_nonzero b -> (0 <= i)%Z -> (i + Z.of_nat (List.length (q_dom b)) <= Z.of_nat n)%Z ->
  exists c, qthen_at d (qb b) i = Ok c /\ qtyped c s (qubits n) /\ glayers c = glayers d ++ [(qubits (Z.to_nat i), b, qubits (n - Z.to_nat i - List.length (q_dom b)))] /\
    forall K (base : qbox -> oper K) psi x, interp_ok base -> List.length x = n ->
      q_eval base c psi x = gate_at (q_array base (ctl_base b)) (fst (place b (Z.to_nat i))) (snd (place b (Z.to_nat i))) (q_eval base d psi) x.
Proof.
  intros T H1 H2 H3 H4. pose proof (ctl_ok_qubits (one_qubit_ok H1 H2)) as [D C].
  destruct (@at_qubits d s n (List.length (q_dom b)) (qb b) i) as (c & E & Tc & L); auto. { apply gtyped_box'; auto. }
  exists c. split; auto. split; auto. cbn in L. unfold gext in L. cbn in L. rewrite app_nil_r in L. split; [exact L|].
  intros K base psi x HI Lx. unfold q_eval. rewrite L, q_layers_app. cbn [q_layers]. rewrite len_qubits. apply place_sem; auto. lia.
Qed.

Lemma apply_one d s n g a : qtyped d s (qubits n) -> one_qubit g -> a < n ->
  exists d' l, apply_gate d g [Z.of_nat a] = Ok d' /\ qtyped d' s (qubits n) /\ glayers d' = glayers d ++ [l] /\ gl_box l = g /\ List.length (gl_left l) = a /\
    forall K (base : qbox -> oper K) psi x, interp_ok base -> List.length x = n -> q_eval base d' psi x = gate_at (q_array base g) [] a (q_eval base d psi) x.
Proof.
  intros T G Ha. assert (B : ctl_base g = g /\ dists_nonzero g /\ List.length (q_dom g) = 1 /\ place g a = ([], a)).
  { destruct G as [[D C] G]. rewrite D, len_qubits. destruct g; cbn; auto; contradiction. } destruct B as (B1 & B2 & B3 & B4).
  destruct (@at_gate d s n g (Z.of_nat a)) as (c & E & Tc & L & R); auto; rewrite ?B1; try lia; auto.
  rewrite Nat2Z.id, B4, B1 in R. eexists c, _. split; [|split; [exact Tc|split; [exact L|split; [reflexivity|split; [cbn; rewrite len_qubits; apply Nat2Z.id|exact R]]]]].
  unfold apply_gate. rewrite B3. cbn [List.length Nat.eqb py_min bind fold_left]. destruct G as [_ G]. destruct g; auto; contradiction.
Qed.
Lemma appended_intro d s n b i t cs ctl : qtyped d s (qubits n) -> one_qubit (ctl_base b) -> named_ok (ctl_base b) -> dists_nonzero b -> match b with QCtl _ _ => True | _ => False end ->
  (0 <= i)%Z -> (i + Z.of_nat (List.length (q_dom b)) <= Z.of_nat n)%Z -> place b (Z.to_nat i) = (cs, t) -> Permutation cs ctl -> sorted_nat cs = sorted_nat ctl ->
  exists d', qthen_at d (qb b) i = Ok d' /\ appended d s n (ctl_base b) ctl t d'.
Proof.
  intros T H1 H1' H2 Hb H3 H4 HP P S. destruct (@at_gate d s n b i) as (c & E & Tc & L & R); auto. rewrite HP in R. cbn [fst snd] in R.
  exists c. split; auto. split; auto. split.
  - intros K base psi x HI Lx. rewrite R by auto. unfold gate_at. replace (forallb (fun c0 => bit_of c0 x) cs) with (forallb (fun c0 => bit_of c0 x) ctl); auto.
    apply eq_true_iff_eq. rewrite !forallb_forall. split; intros H z Hz; apply H; [now rewrite <- P|now rewrite P].
  - destruct b; try contradiction. destruct (@from_box_ctl b distance (Z.to_nat i) cs t) as (ph & Ef); auto.
    eexists _, _, _, _, ph, cs. split; [exact L|]. split; auto. rewrite len_qubits. split; [|exact P]. rewrite Ef, S. reflexivity.
Qed.
Lemma apply_ctl d s n g k a b : qtyped d s (qubits n) -> one_qubit g -> named_ok g -> a < n -> b < n -> a <> b ->
  exists d', apply_gate d (QCtl g k) [Z.of_nat a; Z.of_nat b] = Ok d' /\ appended d s n g [a] b d'.
Proof.
  intros T G N Ha Hb Hab. assert (B : forall z, ctl_base (QCtl g z) = g) by (destruct G as [_ G]; destruct g; cbn; auto; contradiction).
  assert (W : List.length (q_dom g) = 1) by (destruct G as [[D C] G]; now rewrite D, len_qubits).
  assert (P : forall off, place g off = ([], off)) by (destruct G as [_ G]; destruct g; cbn; auto; contradiction).
  assert (Dn : dists_nonzero g) by (destruct G as [_ G]; destruct g; cbn; auto; contradiction).
  assert (E : apply_gate d (QCtl g k) [Z.of_nat a; Z.of_nat b] = qthen_at d (qb (QCtl g (Z.of_nat b - Z.of_nat a))) (Z.min (Z.of_nat a) (Z.of_nat b))).
  { unfold apply_gate, py_min, mk_ctl. destruct (Z.eqb_spec (Z.of_nat b - Z.of_nat a) 0); [lia|]. destruct G as [_ G]. destruct g; try contradiction; reflexivity. }
  rewrite E. pose proof (@appended_intro d s n (QCtl g (Z.of_nat b - Z.of_nat a)) (Z.min (Z.of_nat a) (Z.of_nat b)) b [a] [a]) as Q. rewrite B in Q. apply Q; auto; clear Q; cbn [dists_nonzero q_dom]; rewrite ?repeat_length, ?W; try lia.
  - split; auto. lia.
  - cbn [place]. rewrite W, !P. destruct (Z.ltb_spec 0 (Z.of_nat b - Z.of_nat a)); cbn [app].
    + f_equal; [f_equal|]; lia.
    + f_equal; [f_equal|]; lia.
Qed.
Lemma apply_ctl2 d s n g k1 k2 a b c : qtyped d s (qubits n) -> one_qubit g -> named_ok g -> a < n -> b < n -> c < n -> a <> b -> a <> c -> b <> c ->
  exists d', apply_gate d (QCtl (QCtl g k1) k2) [Z.of_nat a; Z.of_nat b; Z.of_nat c] = Ok d' /\ appended d s n g [a; b] c d'.
Proof.
  intros T G N Ha Hb Hc Hab Hac Hbc. assert (B : forall y z, ctl_base (QCtl (QCtl g y) z) = g) by (destruct G as [_ G]; destruct g; cbn; auto; contradiction).
  assert (W : List.length (q_dom g) = 1) by (destruct G as [[D C] G]; now rewrite D, len_qubits).
  assert (P : forall off, place g off = ([], off)) by (destruct G as [_ G]; destruct g; cbn; auto; contradiction).
  assert (Dn : dists_nonzero g) by (destruct G as [_ G]; destruct g; cbn; auto; contradiction).
  assert (F : forall y z mn, y <> 0%Z -> z <> 0%Z -> (mn = Z.of_nat (min a (min b c))) -> (mn + 1 + Z.abs y + Z.abs z <= Z.of_nat n)%Z ->
     (place (QCtl (QCtl g y) z) (Z.to_nat mn) = ([a; b], c) \/ place (QCtl (QCtl g y) z) (Z.to_nat mn) = ([b; a], c)) ->
     exists d', (do inner <- mk_ctl g y; do g0 <- mk_ctl inner z; qthen_at d (qb g0) mn) = Ok d' /\ appended d s n g [a; b] c d').
  { intros y z mn Hy Hz -> Hw HP. unfold mk_ctl. rewrite (proj2 (Z.eqb_neq y 0) Hy). cbn [bind]. rewrite (proj2 (Z.eqb_neq z 0) Hz). cbn [bind]. 
    assert (SS : sorted_nat [b; a] = sorted_nat [a; b]) by (cbn; destruct (Nat.leb_spec b a), (Nat.leb_spec a b); auto; lia).
    pose proof (fun cs => @appended_intro d s n (QCtl (QCtl g y) z) (Z.of_nat (min a (min b c))) c cs [a; b]) as Q. rewrite B in Q.
    destruct HP as [HP|HP]; [apply (Q [a; b])|apply (Q [b; a])]; auto; clear Q; cbn [dists_nonzero q_dom]; rewrite ?repeat_length, ?W; try lia; auto. apply perm_swap. }
  set (A := Z.of_nat a). set (B' := Z.of_nat b). set (C := Z.of_nat c).
  assert (E : apply_gate d (QCtl (QCtl g k1) k2) [A; B'; C] =
    (if ((C - A) * (C - B') <? 0)%Z then (do inner <- mk_ctl g (C - A); do g0 <- mk_ctl inner (C - B'); qthen_at d (qb g0) (Z.min (Z.min A B') C))
     else (do inner <- mk_ctl g (if (Z.abs (C - B') <? Z.abs (C - A))%Z then C - B' else C - A);
           do g0 <- mk_ctl inner ((if (Z.abs (C - A) <? Z.abs (C - B'))%Z then C - B' else C - A) - (if (Z.abs (C - B') <? Z.abs (C - A))%Z then C - B' else C - A));
           qthen_at d (qb g0) (Z.min (Z.min A B') C)))) by reflexivity.
  rewrite E. clear E. destruct (Z.ltb_spec ((C - A) * (C - B')) 0).
  - apply F; try lia.
    + assert ((C - A < 0 /\ 0 < C - B') \/ (0 < C - A /\ C - B' < 0))%Z by nia. lia.
    + cbn [place q_dom]. rewrite repeat_length, W, !P. assert ((C - A < 0 /\ 0 < C - B') \/ (0 < C - A /\ C - B' < 0))%Z as [[H1 H2]|[H1 H2]] by nia.
      * right. destruct (Z.ltb_spec 0 (C - B')); [|lia]. destruct (Z.ltb_spec 0 (C - A)); [lia|]. cbn [app]. repeat f_equal; lia.
      * left. destruct (Z.ltb_spec 0 (C - B')); [lia|]. destruct (Z.ltb_spec 0 (C - A)); [|lia]. cbn [app]. repeat f_equal; lia.
  - assert (((C - A < 0 /\ C - B' < 0) \/ (0 < C - A /\ 0 < C - B'))%Z) as S by nia.
    destruct (Z.ltb_spec (Z.abs (C - B')) (Z.abs (C - A))); destruct (Z.ltb_spec (Z.abs (C - A)) (Z.abs (C - B'))); try lia; apply F; try lia;
      cbn [place q_dom]; rewrite repeat_length, W, !P; destruct S as [[H4 H5]|[H4 H5]]; repeat (match goal with |- context [(0 <? ?z)%Z] => destruct (Z.ltb_spec 0 z); try lia end); cbn [app];
      first [left; repeat f_equal; lia | right; repeat f_equal; lia].
Qed.
