(** Quantum circuits: operators of layers, decomposition, gate placement (proofs only). *)
From Coq Require Import QArith.
From Verif Require Import PyBase PyFacts DiagModel DiagPerm GDiag GDiagSpec GDiagFacts QModel QSpec.
Close Scope Q_scope.
Set Implicit Arguments. Unset Strict Implicit.

Lemma wire_eqb_ok a b : wire_eqb a b = true <-> a = b.
Proof. destruct a, b; cbn; split; congruence. Qed.
Lemma len_qubits n : List.length (qubits n) = n. Proof. apply repeat_length. Qed.
Lemma qubits_app m n : qubits m ++ qubits n = qubits (m + n).
Proof. unfold qubits. now rewrite repeat_app. Qed.
Lemma map_const A B (c : B) (l : list A) : map (fun _ => c) l = repeat c (List.length l).
Proof. induction l; cbn; congruence. Qed.
Lemma nth_qubits i n : nth i (qubits n) Qb = Qb. Proof. unfold qubits. revert i; induction n; intros [|i]; cbn; auto. Qed.
Definition is_swap (b : qbox) : bool := match b with QSwap _ _ => true | _ => false end.
Lemma qperm_route t p : Permutation p (seq 0 (List.length t)) -> exists d, qperm t p = Ok d /\ groute q_dom q_cod is_swap Qb d t p.
Proof. intro P. apply (@gpermutation_route wire qbox wire_eqb q_dom q_cod wire_eqb_ok QSwap is_swap Qb); auto. Qed.

Section K.
  Variable K : Type.
  Notation oper := (oper K).
  Lemma q_layers_app f ls ks (psi : state K) : q_layers f (ls ++ ks) psi = q_layers f ks (q_layers f ls psi).
  Proof. revert psi; induction ls as [|[[l b] r] ls IH]; intro psi; cbn; auto. Qed.
  Lemma skipn_2 (l : nat) (v : list bool) x y w : skipn l v = x :: y :: w -> List.length (firstn l v) = l /\ v = firstn l v ++ x :: y :: w.
  Proof.
    intro E. split; [|now rewrite <- E, firstn_skipn]. rewrite firstn_length. assert (List.length (skipn l v) = S (S (List.length w))) by now rewrite E. rewrite skipn_length in H. lia.
  Qed.
  Lemma on_wires_mid l m n (u : oper) psi a y c : List.length a = l -> List.length y = n ->
    on_wires l m n u psi (a ++ y ++ c) = u (fun z => psi (a ++ z ++ c)) y.
  Proof.
    intros La Ly. unfold on_wires. assert (E1 : firstn l (a ++ y ++ c) = a) by (rewrite <- La, firstn_app, firstn_all, Nat.sub_diag; cbn; apply app_nil_r).
    assert (E2 : skipn l (a ++ y ++ c) = y ++ c) by (rewrite <- La, skipn_app, skipn_all, Nat.sub_diag; reflexivity).
    assert (E3 : skipn (l + n) (a ++ y ++ c) = c).
    { rewrite app_assoc, skipn_app, skipn_all2 by (rewrite app_length; lia). rewrite app_length. replace (l + n - (List.length a + List.length y)) with 0 by lia. reflexivity. }
    rewrite E1, E2, E3. rewrite firstn_app, <- Ly, firstn_all, Nat.sub_diag. cbn [firstn]. now rewrite app_nil_r.
  Qed.
  Lemma swaps_fwd f ls : (forall a b, f (QSwap a b) = @op_swap K) -> forall v w (psi : state K), grun is_swap ls v = Some w -> q_layers f ls psi w = psi v.
  Proof.
    intro Hf. induction ls as [|[[l b] r] ls IH]; cbn; intros v w psi; [intros [= ->]; auto|].
    destruct b; cbn; try discriminate. destruct (skipn (List.length l) v) as [|x [|y v2]] eqn:E; try discriminate. intro H.
    rewrite (IH _ _ _ H). rewrite Hf. destruct (skipn_2 E) as [L V]. 
    change (y :: x :: v2) with ([y; x] ++ v2). rewrite on_wires_mid by auto. cbn. now rewrite <- V.
  Qed.
  Lemma swaps_bwd f ls : (forall a b, f (QSwap a b) = @op_swap K) -> forall v w (psi : state K), grun is_swap ls v = Some w ->
    q_layers f (map (fun x => (gl_left x, q_dag (gl_box x), gl_right x)) (rev ls)) psi v = psi w.
  Proof.
    intro Hf. induction ls as [|[[l b] r] ls IH]; cbn; intros v w psi; [intros [= ->]; auto|].
    destruct b; cbn; try discriminate. destruct (skipn (List.length l) v) as [|x [|y v2]] eqn:E; try discriminate. intro H.
    rewrite map_app, q_layers_app. cbn. rewrite Hf. destruct (skipn_2 E) as [L V]. 
    rewrite V. change (x :: y :: v2) with ([x; y] ++ v2). rewrite on_wires_mid by auto. cbn. now apply IH.
  Qed.
  Lemma pick_map (v : list bool) p : forall q, map (fun i => nth i v false) (p ++ q) = map (fun i => nth i v false) p ++ map (fun i => nth i v false) q.
  Proof. intro q. apply map_app. Qed.
  Lemma on_wires_local l m n r (u : oper) : local_op m n u -> local_op (l + m + r) (l + n + r) (on_wires l m n u).
  Proof.
    intros H psi phi E x L. unfold on_wires. apply H.
    - intros y Ly. apply E. rewrite !app_length, firstn_length, skipn_length. lia.
    - rewrite firstn_length, skipn_length. lia.
  Qed.
  Lemma on_wires_ext l m n (u v : oper) psi x : (forall psi y, List.length y = n -> u psi y = v psi y) -> l + n <= List.length x ->
    on_wires l m n u psi x = on_wires l m n v psi x.
  Proof. intros H L. unfold on_wires. apply H. rewrite firstn_length, skipn_length. lia. Qed.

  Lemma len1 (x : list bool) n : List.length x = S n -> exists b y, x = b :: y /\ List.length y = n.
  Proof. destruct x as [|b y]; [discriminate|]. intros [= E]. eauto. Qed.
  Lemma split_at n m (x : list bool) : List.length x = n + m -> exists a b, x = a ++ b /\ List.length a = n /\ List.length b = m.
  Proof. intro E. exists (firstn n x), (skipn n x). rewrite firstn_skipn, firstn_length, skipn_length. repeat split; lia. Qed.

  (** pieces of the decomposition *)
  Definition dec_pattern (m : nat) (d : Z) : list nat :=
    let n := m + Z.abs_nat d in let s := n - (1 + m) in
    if (0 <? d)%Z then 0 :: seq (s + 1) (n - (s + 1)) ++ seq 1 s else (n - 1) :: seq 0 (n - 1).
  Lemma dec_pattern_perm m d : d <> 0%Z -> Permutation (dec_pattern m d) (seq 0 (m + Z.abs_nat d)).
  Proof.
    intro Hd. unfold dec_pattern. set (n := m + Z.abs_nat d). assert (Hn : Z.abs_nat d >= 1) by lia. destruct (Z.ltb_spec 0 d).
    - set (s := n - (1 + m)). assert (n = 1 + (s + m)) by lia. replace (n - (s + 1)) with m by lia. rewrite H0 at 1. change (seq 0 (1 + (s + m))) with (0 :: seq 1 (s + m)).
      constructor. rewrite seq_app. rewrite Permutation_app_comm. replace (s + 1) with (1 + s) by lia. reflexivity.
    - assert (E : n = S (n - 1)) by lia. rewrite E at 3. rewrite seq_S. cbn [Nat.add]. apply Permutation_cons_append.
  Qed.
  Lemma decompose_eq c d m : on_qubits m c -> d <> 0%Z -> d <> 1%Z ->
    exists P dg, decompose_ctl c d = Ok dg /\ qtyped dg (qubits (m + Z.abs_nat d)) (qubits (m + Z.abs_nat d)) /\
      glayers dg = glayers P ++ [([], QCtl c 1, qubits (Z.abs_nat d - 1))] ++ map (fun x => (gl_left x, q_dag (gl_box x), gl_right x)) (rev (glayers P)) /\
      forall v : list bool, List.length v = m + Z.abs_nat d -> grun is_swap (glayers P) v = Some (map (fun i => nth i v false) (dec_pattern m d)).
  Proof.
    intros [D C] Hd0 Hd1. unfold decompose_ctl. rewrite (proj2 (Z.eqb_neq d 1) Hd1). cbn [q_dom]. rewrite D, !len_qubits, ?repeat_length.
    fold (qubits (m + Z.abs_nat d)). set (n := m + Z.abs_nat d). fold (dec_pattern m d).
    assert (Lp : List.length (qubits n) = n) by apply len_qubits.
    destruct (@qperm_route (qubits n) (dec_pattern m d)) as (P & EP & W & DP & CP & R); [rewrite Lp; now apply dec_pattern_perm|].
    change (if (0 <? d)%Z then 0 :: seq (n - (1 + m) + 1) (n - (n - (1 + m) + 1)) ++ seq 1 (n - (1 + m)) else (n - 1) :: seq 0 (n - 1)) with (dec_pattern m d).
    rewrite EP. cbn [bind]. assert (CP' : gcod P = qubits n).
    { rewrite CP. transitivity (map (fun _ : nat => Qb) (dec_pattern m d)).
      - apply map_ext_in. intros i Hi. apply nth_qubits.
      - rewrite map_const. rewrite (Permutation_length (dec_pattern_perm m Hd0)). now rewrite seq_length. }
    assert (TP : qtyped P (qubits n) (qubits n)) by (split; [exact W|split; auto]).
    assert (TC : qtyped (qtensor (qb (QCtl c 1)) (Idn (n - (1 + m)))) (qubits n) (qubits n)).
    { replace (qubits n) with (qubits (m + 1) ++ qubits (n - (1 + m))) by (rewrite qubits_app; f_equal; lia).
      apply gtyped_tensor; [|apply gtyped_id]. apply gtyped_box'; cbn; rewrite D, len_qubits; reflexivity. }
    destruct (gtyped_then wire_eqb_ok TP TC) as (A1 & E1 & T1 & L1). unfold qthen. rewrite E1. cbn [bind].
    assert (TD : qtyped (qdagger P) (qubits n) (qubits n)).
    { destruct TP as (W' & D' & C'). unfold qdagger, gdagger. destruct (glayers P) as [|x0 l0] eqn:EL; [split; auto|]. rewrite <- EL. split; [|split; auto].
      unfold gwf. cbn [gdom gcod glayers]. assert (H : forall ls s t, gchain q_dom q_cod s ls t -> (exists v : list bool, grun is_swap ls v <> None) ->
         gchain q_dom q_cod t (map (fun x => (gl_left x, q_dag (gl_box x), gl_right x)) (rev ls)) s).
      { induction ls as [|[[l b] r] ls IH]; intros s t; cbn; [auto|]. intros [-> Hc] [v Hv]. rewrite map_app. apply gchain_app. exists (l ++ q_cod b ++ r).
        destruct b; cbn in Hv; try congruence. split; [apply IH; auto|cbn; auto]. destruct (skipn (List.length l) v) as [|x [|y v2]]; [congruence|congruence|eauto]. }
      apply H; auto. exists (repeat false n). rewrite EL, (R bool false); [discriminate|]. now rewrite repeat_length. }
    destruct (gtyped_then wire_eqb_ok T1 TD) as (A2 & E2 & T2 & L2). exists P, A2. split; [exact E2|]. split; [exact T2|]. split.
    - rewrite L2, L1. unfold qdagger. rewrite gdagger_layers, <- app_assoc. f_equal. cbn. unfold gext. cbn. replace (n - S m) with (Z.abs_nat d - 1) by lia. reflexivity.
    - intros v Hv. apply (R bool false). now rewrite Lp.
  Qed.
  Lemma nth_map_seq (x : list bool) s n : map (fun i => nth i x false) (seq s n) = firstn n (skipn s x) ++ repeat false (n - (List.length x - s)).
  Proof.
    revert s; induction n as [|n IH]; intro s; cbn [seq map firstn]; [reflexivity|]. rewrite IH.
    destruct (skipn s x) as [|b y] eqn:E.
    - assert (List.length (skipn s x) = 0) by now rewrite E. rewrite skipn_length in H. rewrite nth_overflow by lia.
      rewrite (skipn_all2 (n:=S s)) by lia. rewrite firstn_nil. cbn [app]. rewrite H. replace (List.length x - S s) with 0 by lia. rewrite !Nat.sub_0_r. reflexivity.
    - assert (Hn : nth_error x s = Some b). { rewrite <- (firstn_skipn s x), E. assert (List.length (skipn s x) = S (List.length y)) by now rewrite E. rewrite skipn_length in H.
        rewrite nth_error_app2; rewrite firstn_length; [|lia]. replace (s - Nat.min s (List.length x)) with 0 by lia. reflexivity. }
      rewrite (nth_error_nth _ _ _ Hn). rewrite (skipn_nth_error Hn) in E. injection E as <-. cbn [firstn app]. assert (s < List.length x) by (apply nth_error_Some; congruence). replace (S n - (List.length x - s)) with (n - (List.length x - S s)) by lia. reflexivity.
  Qed.
  Lemma dec_pattern_pick_pos m d c s t : (0 < d)%Z -> List.length s = Z.to_nat d - 1 -> List.length t = m ->
    map (fun i => nth i (c :: s ++ t) false) (dec_pattern m d) = c :: t ++ s.
  Proof.
    intros Hd Ls Lt. unfold dec_pattern. destruct (Z.ltb_spec 0 d); [|lia]. cbn [map]. f_equal. rewrite map_app, !nth_map_seq.
    replace (m + Z.abs_nat d - (1 + m) + 1) with (S (List.length s)) by lia. replace (m + Z.abs_nat d - S (List.length s)) with m by lia.
    replace (m + Z.abs_nat d - (1 + m)) with (List.length s) by lia. cbn [skipn List.length]. rewrite app_length. f_equal.
    - rewrite skipn_app, skipn_all, Nat.sub_diag. cbn [app skipn]. rewrite <- Lt, firstn_all. replace (_ - _) with 0 by lia. cbn. now rewrite app_nil_r.
    - rewrite firstn_app, firstn_all, Nat.sub_diag. cbn [firstn]. replace (_ - _) with 0 by lia. cbn. now rewrite !app_nil_r.
  Qed.
  Lemma dec_pattern_pick_neg m d c y : (d < 0)%Z -> List.length y = m + Z.abs_nat d - 1 ->
    map (fun i => nth i (y ++ [c]) false) (dec_pattern m d) = c :: y.
  Proof.
    intros Hd Ly. unfold dec_pattern. destruct (Z.ltb_spec 0 d); [lia|]. cbn [map]. rewrite app_nth2 by lia. replace (_ - _ - _) with 0 by lia. cbn [nth]. f_equal.
    rewrite nth_map_seq. cbn [skipn]. rewrite app_length. cbn [List.length]. rewrite firstn_app, <- Ly, firstn_all, Nat.sub_diag. cbn [firstn].
    replace (_ - _) with 0 by lia. cbn. now rewrite !app_nil_r.
  Qed.

  (** the decomposed box acts as the controlled box *)
  Lemma decompose_ctl_spec c d m (f : qbox -> oper) (u : oper) :
    on_qubits m c -> d <> 0%Z -> d <> 1%Z -> (forall a b, f (QSwap a b) = @op_swap K) -> f (QCtl c 1) = op_ctl1 u -> local_op m m u ->
    exists dg, decompose_ctl c d = Ok dg /\ qtyped dg (qubits (m + Z.abs_nat d)) (qubits (m + Z.abs_nat d)) /\
      forall psi x, List.length x = m + Z.abs_nat d -> q_layers f (glayers dg) psi x = ctl_at d m u psi x.
  Proof.
    intros OQ Hd0 Hd1 Hsw Hc Hu. destruct (decompose_eq OQ Hd0 Hd1) as (P & dg & E & T & L & R). exists dg. split; auto. split; auto.
    intros psi x Lx. rewrite L, !q_layers_app. rewrite (swaps_bwd Hsw _ (R x Lx)). cbn [q_layers q_dom q_cod List.length]. destruct OQ as [D C]. rewrite D, len_qubits. rewrite Hc.
    replace (m + Z.abs_nat 1) with (S m) by lia. rewrite ?repeat_length, ?len_qubits; replace (m + Z.abs_nat 1) with (S m) by lia.
    unfold ctl_at. destruct (Z.ltb_spec 0 d).
    - assert (exists c0 s t, x = c0 :: s ++ t /\ List.length s = Z.to_nat d - 1 /\ List.length t = m) as (c0 & s & t & -> & Ls & Lt).
      { destruct (@len1 x (Z.to_nat d - 1 + m)) as (c0 & y & -> & Ly); [lia|]. destruct (split_at Ly) as (s & t & -> & ? & ?). exists c0, s, t. auto. }
      rewrite dec_pattern_pick_pos by auto. change (c0 :: t ++ s) with ([] ++ (c0 :: t) ++ s). rewrite on_wires_mid; [|auto|cbn; lia]. cbn [app op_ctl1]. cbn [bit_of nth].
      assert (Q : forall c1 t', List.length t' = m -> q_layers f (glayers P) psi (c1 :: t' ++ s) = psi (c1 :: s ++ t')).
      { intros c1 t' Lt'. apply (swaps_fwd Hsw). rewrite R by (cbn; rewrite app_length; lia). now rewrite dec_pattern_pick_pos by auto. }
      unfold op_ctl1. destruct c0; [|now apply Q]. replace (Z.to_nat d) with (S (List.length s)) by lia. cbn [firstn skipn].
      rewrite firstn_app, skipn_app, firstn_all, skipn_all, Nat.sub_diag. cbn [firstn skipn app]. rewrite app_nil_r. apply Hu; auto.
    - destruct (exists_last (l:=x)) as (y & c0 & ->); [intros ->; cbn in Lx; lia|]. rewrite app_length in Lx. cbn [List.length] in Lx.
      rewrite dec_pattern_pick_neg by lia. destruct (@split_at m (Z.abs_nat d - 1) y) as (t & s & -> & Lt & Ls); [lia|].
      change (c0 :: t ++ s) with ([] ++ (c0 :: t) ++ s). rewrite on_wires_mid; [|auto|cbn; lia]. cbn [app].
      assert (Q : forall c1 t', List.length t' = m -> q_layers f (glayers P) psi (c1 :: t' ++ s) = psi (t' ++ s ++ [c1])).
      { intros c1 t' Lt'. apply (swaps_fwd Hsw). rewrite R by (rewrite !app_length; cbn; lia). rewrite app_assoc. rewrite dec_pattern_pick_neg by (rewrite ?app_length; lia). reflexivity. }
      unfold bit_of. rewrite app_nth2 by (rewrite !app_length in *; lia). replace (_ - _ - _) with 0 by (rewrite !app_length in *; lia). cbn [nth].
      unfold op_ctl1. rewrite <- app_assoc. destruct c0; [|now apply Q]. rewrite skipn_app, firstn_app, <- Lt, skipn_all, firstn_all, Nat.sub_diag. cbn [firstn skipn app]. rewrite app_nil_r.
      apply Hu; auto.
  Qed.
End K.
