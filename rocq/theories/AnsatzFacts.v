(** Circuits of the ansaetze: gates in order. *)
From Coq Require Import QArith.
From Verif Require Import PyBase PyFacts TyModel DiagModel GDiag GDiagSpec GDiagFacts QModel QSpec QFacts QPlace QApply QGen TnFacts AnsatzModel AnsatzSpec.
Close Scope Q_scope. Set Implicit Arguments. Unset Strict Implicit.

Definition gate_of (x : list wire * qbox * list wire) : qbox * list nat * nat :=
  (ctl_base (gl_box x), fst (place (gl_box x) (List.length (gl_left x))), snd (place (gl_box x) (List.length (gl_left x)))).
Definition good_lay (x : list wire * qbox * list wire) : Prop := one_qubit (ctl_base (gl_box x)) /\ dists_nonzero (gl_box x).
Definition built (n : nat) (c : qdiag) (gs : gatelist) : Prop := qtyped c (qubits n) (qubits n) /\ Forall good_lay (glayers c) /\ map gate_of (glayers c) = gs.

Lemma built_id n : built n (Idn n) [].
Proof. split; [apply gtyped_id|]. split; [constructor|reflexivity]. Qed.
Lemma built_then n a b ga gb : built n a ga -> built n b gb -> exists c, qthen a b = Ok c /\ built n c (ga ++ gb).
Proof.
  intros (Ta & Fa & Ea) (Tb & Fb & Eb). destruct (gtyped_then wire_eqb_ok Ta Tb) as (c & E & T & L). exists c. split; [exact E|]. split; auto.
  rewrite L. split; [now apply Forall_app|]. rewrite map_app, <- Ea, <- Eb. reflexivity.
Qed.
Lemma one_plain g : one_qubit g -> ctl_base g = g /\ dists_nonzero g /\ List.length (q_dom g) = 1 /\ forall off, place g off = ([], off).
Proof. intros [[D C] G]. rewrite D, len_qubits. destruct g; cbn; auto; contradiction. Qed.
Lemma built_one n c gs g a : built n c gs -> one_qubit g -> a < n -> exists c', apply_gate c g [Z.of_nat a] = Ok c' /\ built n c' (gs ++ [(g, [], a)]).
Proof.
  intros (T & F & E) G Ha. destruct (one_plain G) as (B1 & B2 & B3 & B4).
  destruct (@apply_one c (qubits n) n g a) as (c' & l & Ea & T' & L & Eb & Ll & _); auto. exists c'. split; auto. split; auto. rewrite L, map_app. split.
  - apply Forall_app. split; auto. repeat constructor; rewrite Eb, ?B1; auto; apply G.
  - rewrite <- E. f_equal. cbn [map]. unfold gate_of. rewrite Eb, Ll, B1, B4. reflexivity.
Qed.
Lemma built_ctl n c gs g k a b : built n c gs -> one_qubit g -> a < n -> b < n -> a <> b ->
  exists c', apply_gate c (QCtl g k) [Z.of_nat a; Z.of_nat b] = Ok c' /\ built n c' (gs ++ [(g, [a], b)]).
Proof.
  intros (T & F & E) G Ha Hb Hab. destruct (one_plain G) as (B1 & B2 & B3 & B4).
  assert (Eg : apply_gate c (QCtl g k) [Z.of_nat a; Z.of_nat b] = qthen_at c (qb (QCtl g (Z.of_nat b - Z.of_nat a))) (Z.min (Z.of_nat a) (Z.of_nat b))).
  { unfold apply_gate, py_min, mk_ctl. destruct (Z.eqb_spec (Z.of_nat b - Z.of_nat a) 0); [lia|]. destruct G as [_ G]. destruct g; try contradiction; reflexivity. }
  rewrite Eg. set (bx := QCtl g (Z.of_nat b - Z.of_nat a)). assert (Bb : ctl_base bx = g) by exact B1. assert (Dn : dists_nonzero bx) by (split; [lia|auto]).
  destruct (@at_gate c (qubits n) n bx (Z.min (Z.of_nat a) (Z.of_nat b))) as (c' & Ec & T' & L & _); auto; [now rewrite Bb|lia|unfold bx; cbn [q_dom]; rewrite repeat_length, B3; lia|].
  exists c'. split; auto. split; auto. rewrite L, map_app. split.
  - apply Forall_app. split; auto. constructor; [|constructor]. split; auto. cbn [gl_box fst snd]. now rewrite Bb.
  - rewrite <- E. f_equal. cbn [map]. unfold gate_of. cbn [gl_box gl_left fst snd]. rewrite Bb. unfold bx. cbn [place]. rewrite len_qubits, B3, !B4.
    destruct (Z.ltb_spec 0 (Z.of_nat b - Z.of_nat a)); cbn [fst snd app]; f_equal; [f_equal|]; try lia; repeat f_equal; lia.
Qed.
Lemma built_col bs : Forall one_qubit bs -> forall n l, n = List.length bs -> built n (column bs) (map (fun p => (snd p, [], fst p)) (enumerate 0 bs)) /\
  map gate_of (map (gext (qubits l) []) (glayers (column bs))) = map (fun p => (snd p, [], fst p)) (enumerate l bs).
Proof.
  unfold column. induction 1 as [|b bs Hb Hs IH]; intros n l ->.
  - split; [exact (built_id 0)|reflexivity].
  - cbn [map]. rewrite tensor_all_cons. destruct (one_plain Hb) as (B1 & B2 & B3 & B4).
    assert (Gd : forall l r, good_lay (l, b, r)) by (intros; split; cbn [gl_box fst snd]; rewrite ?B1; auto).
    destruct (IH _ 1 eq_refl) as [(T & F & _) E1]. destruct (IH _ (S l) eq_refl) as [_ E2]. destruct Hb as [[D C] _]. split; [split; [|split]|].
    + change (qubits (List.length (b :: bs))) with (qubits 1 ++ qubits (List.length bs)). apply gtyped_tensor; auto. now apply gtyped_box'.
    + cbn [gtensor glayers qb gbox map app]. constructor; [apply Gd|]. apply Forall_map. eapply Forall_impl; [|exact F]. intros [[l' b'] r'] Q. exact Q.
    + cbn [gtensor glayers qb gbox map app enumerate gcod]. rewrite C. rewrite E1. f_equal. unfold gate_of, gext. cbn [gl_box gl_left fst snd app List.length]. now rewrite B1, B4.
    + cbn [gtensor glayers qb gbox map app enumerate gcod]. rewrite C. f_equal.
      * unfold gate_of, gext. cbn [gl_box gl_left fst snd app List.length]. rewrite app_nil_r, len_qubits, B1, B4. reflexivity.
      * rewrite <- E2. rewrite !map_map. apply map_ext. intros [[l' b'] r']. unfold gate_of, gext. cbn [gl_box gl_left fst snd]. rewrite !app_length, !len_qubits. replace (l + (1 + List.length l')) with (S l + List.length l') by lia. reflexivity.
Qed.
Lemma enumerate_map X Y (f : X -> Y) l : forall k, enumerate k (map f l) = map (fun p => (fst p, f (snd p))) (enumerate k l).
Proof. induction l; intros; cbn; [reflexivity|now rewrite IHl]. Qed.
Lemma enumerate_seq k : forall n, enumerate k (seq k n) = map (fun i => (i, i)) (seq k n).
Proof. intros n. revert k. induction n; intros; cbn; [reflexivity|now rewrite IHn]. Qed.
Lemma built_each n f : (forall i, one_qubit (f i)) -> built n (column (map f (seq 0 n))) (each n f).
Proof.
  intros H. destruct (@built_col (map f (seq 0 n))) with (n := n) (l := 0) as [B _].
  - apply Forall_map, Forall_forall. auto.
  - now rewrite map_length, seq_length.
  - rewrite enumerate_map, enumerate_seq, !map_map in B. exact B.
Qed.
Lemma built_fold n X (f : qdiag -> X -> res qdiag) (G : X -> gatelist) l : (forall x, In x l -> forall c gs, built n c gs -> exists c', f c x = Ok c' /\ built n c' (gs ++ G x)) ->
  forall c gs, built n c gs -> exists c', foldM f l c = Ok c' /\ built n c' (gs ++ flat_map G l).
Proof.
  induction l as [|x l IH]; intros H c gs B; cbn [foldM flat_map].
  - exists c. now rewrite app_nil_r.
  - destruct (H x (or_introl eq_refl) c gs B) as (c1 & E1 & B1). rewrite E1. cbn [bind].
    destruct (IH (fun y Hy => H y (or_intror Hy)) c1 _ B1) as (c2 & E2 & B2). exists c2. split; auto. now rewrite <- app_assoc in B2.
Qed.
Lemma flat_map_one X Y (f : X -> Y) l : flat_map (fun x => [f x]) l = map f l.
Proof. induction l; cbn; congruence. Qed.
(** ** Semantics *)
Lemma array_plain K (base : qbox -> oper K) g : interp_ok base -> one_qubit g -> local_op 1 1 (q_array base g).
Proof.
  intros HI [[D C] G]. assert (q_array base g = base g) as ->. { destruct g; try reflexivity; try contradiction. discriminate. }
  pose proof (HI g) as L. now rewrite D, C in L.
Qed.
Lemma set_bit_length i b (x : list bool) : i < List.length x -> List.length (set_bit i b x) = List.length x.
Proof. intros H. unfold set_bit. rewrite app_length. cbn [List.length]. rewrite firstn_length, skipn_length. lia. Qed.
Lemma gate_at_local K (u : oper K) cs t n : local_op 1 1 u -> t < n -> local_op n n (gate_at u cs t).
Proof.
  intros Hu Ht psi phi H x L. unfold gate_at. destruct (forallb _ cs); [|now apply H]. apply Hu; auto. intros y Ly. apply H. rewrite set_bit_length; lia.
Qed.
Lemma run_local K (base : qbox -> oper K) n gs : interp_ok base -> Forall (fun g => one_qubit (fst (fst g)) /\ snd g < n) gs -> local_op n n (run_gates (q_array base) gs).
Proof.
  intros HI F. unfold run_gates. induction F as [|[[g cs] t] gs [G Ht] _ IH]; cbn [fold_left]; intros psi phi H x L; [now apply H|].
  apply IH; auto. intros y Ly. eapply gate_at_local; eauto. now apply array_plain.
Qed.
Lemma place_range b off : one_qubit (ctl_base b) -> dists_nonzero b -> snd (place b off) < off + List.length (q_dom b).
Proof.
  revert off. induction b; cbn [ctl_base dists_nonzero place]; intros off H1 H2; try (destruct H1 as [[D _] _]; rewrite D, len_qubits; cbn; lia).
  destruct H2 as [H2 H3]. cbn [q_dom]. rewrite repeat_length. destruct (Z.ltb_spec 0 distance).
  - specialize (IHb (off + Z.to_nat distance) H1 H3). destruct (place b (off + Z.to_nat distance)). cbn [snd] in *. lia.
  - specialize (IHb off H1 H3). destruct (place b off). cbn [snd] in *. lia.
Qed.
Lemma layers_run K (base : qbox -> oper K) n : interp_ok base -> forall ls : list (list wire * qbox * list wire), Forall good_lay ls -> forall s, s = qubits n -> gchain q_dom q_cod s ls (qubits n) ->
  Forall (fun g => one_qubit (fst (fst g)) /\ snd g < n) (map gate_of ls) /\ forall psi x, List.length x = n -> q_layers (q_array base) ls psi x = run_gates (q_array base) (map gate_of ls) psi x.
Proof.
  intros HI. induction 1 as [|[[l b] r] ls [G1 G2] _ IH]; intros s -> Hc.
  - split; [constructor|reflexivity].
  - cbn [gchain] in Hc. destruct Hc as [Es Hc]. cbn [gl_box gl_left gl_right fst snd] in *.
    assert (Q := ctl_ok_qubits (one_qubit_ok G1 G2)). destruct Q as [D C].
    assert (Ec : l ++ q_cod b ++ r = qubits n) by (rewrite Es, C, D, len_qubits; reflexivity).
    assert (Len : List.length l + List.length (q_dom b) <= n). { apply (f_equal (@List.length wire)) in Es. unfold gl_dom in Es. rewrite len_qubits in Es. cbn [gl_left gl_box gl_right fst snd] in Es. rewrite !app_length in Es. lia. }
    destruct (IH _ Ec Hc) as [F E]. split.
    + cbn [map]. constructor; auto. unfold gate_of. cbn [gl_box gl_left fst snd]. split; auto. pose proof (@place_range b (List.length l) G1 G2). lia.
    + intros psi x Lx. cbn [q_layers map]. rewrite E by auto. unfold run_gates at 2. cbn [fold_left]. unfold gate_of at 2. cbn [gl_box gl_left fst snd].
      fold (run_gates (q_array base) (map gate_of ls)). apply (@run_local K base n); auto. intros y Ly. apply place_sem; auto. rewrite Ly. exact Len.
Qed.
Lemma built_implements n c gs : built n c gs -> implements n c gs.
Proof.
  intros (T & F & E). split; auto. split.
  - unfold gboxes. rewrite <- E, !map_map. reflexivity.
  - intros K base psi x HI L. destruct T as (W & D & C). unfold q_eval. unfold gwf in W. rewrite D, C in W. destruct (layers_run HI F eq_refl W) as [_ R]. rewrite R by auto. now rewrite E.
Qed.
