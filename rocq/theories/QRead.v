(** [readoff_circuital] against the reference trace (proofs only). *)
From Coq Require Import QArith.
From Verif Require Import PyBase PyFacts DiagModel DiagPerm DiagMisc GDiag GDiagSpec GDiagFacts QModel QSpec QFacts QPlace QApply QGen QReadSpec.
Close Scope Q_scope.
Set Implicit Arguments. Unset Strict Implicit.

(** ** [from_box] at an offset *)
Lemma py_index_shift off w z : py_index (seq off w) z = rmap (fun i => off + i) (py_index (seq 0 w) z).
Proof.
  unfold py_index. rewrite !seq_length. destruct (_ && _)%bool; [|reflexivity]. set (k := Z.to_nat _).
  destruct (nth_error (seq 0 w) k) as [v|] eqn:E.
  - assert (k < w) by (rewrite <- (seq_length w 0); apply nth_error_Some; congruence). rewrite (nth_error_nth' _ 0) by (rewrite seq_length; lia). rewrite (nth_error_nth' _ 0) in E by (rewrite seq_length; lia).
    injection E as <-. rewrite !seq_nth by auto. reflexivity.
  - apply nth_error_None in E. rewrite seq_length in E. rewrite (proj2 (nth_error_None _ _)) by (rewrite seq_length; auto). reflexivity.
Qed.
Lemma mapM_shift off w zs : mapM (py_index (seq off w)) zs = rmap (map (fun i => off + i)) (mapM (py_index (seq 0 w)) zs).
Proof.
  induction zs as [|z zs IH]; [reflexivity|]. cbn [mapM]. rewrite py_index_shift, IH. destruct (py_index (seq 0 w) z); cbn; [|reflexivity]. destruct (mapM (py_index (seq 0 w)) zs); reflexivity.
Qed.
Lemma ins_shift off x l : ins_sorted (off + x) (map (fun i => off + i) l) = map (fun i => off + i) (ins_sorted x l).
Proof. induction l as [|y l IH]; [reflexivity|]. cbn. destruct (Nat.leb_spec x y), (Nat.leb_spec (off + x) (off + y)); try lia; cbn; [reflexivity|]. now rewrite IH. Qed.
Lemma sorted_shift off l : sorted_nat (map (fun i => off + i) l) = map (fun i => off + i) (sorted_nat l).
Proof. induction l as [|y l IH]; [reflexivity|]. cbn. now rewrite IH, ins_shift. Qed.
Lemma removelast_map A B (f : A -> B) l : removelast (map f l) = map f (removelast l).
Proof. induction l as [|x [|y l] IH]; [reflexivity..|]. cbn in *. now rewrite IH. Qed.
Lemma seq_shift0 off w : seq off w = map (fun i => off + i) (seq 0 w).
Proof. revert off. induction w as [|w IH]; intro off; [reflexivity|]. cbn. rewrite Nat.add_0_r. f_equal. rewrite IH. rewrite <- seq_shift, map_map. apply map_ext. intro. lia. Qed.
Definition shift_gate (off : nat) (g : gate) : gate :=
  Gate (g_type g) (map (fun i => off + i) (g_qubits g)) (g_phase g) (g_dagger g) (option_map (map (fun i => off + i)) (g_control g)) (option_map (fun i => off + i) (g_target g)).
Lemma from_box_shift b off : from_box b off = rmap (shift_gate off) (from_box b 0).
Proof.
  unfold from_box. set (w := List.length (q_dom b)). rewrite (seq_shift0 off w).
  destruct (match b with QDag b0 => (b0, true) | _ => (b, false) end) as [box dg]. destruct box; try reflexivity.
  rewrite <- (seq_shift0 off w). rewrite mapM_shift. destruct (mapM (py_index (seq 0 w)) _) as [iq|]; cbn [rmap bind]; [|reflexivity].
  match goal with |- bind ?x _ = _ => destruct x end; cbn [rmap bind]; [|reflexivity]. unfold shift_gate. cbn. f_equal. f_equal.
  - now rewrite removelast_map, sorted_shift.
  - unfold last_opt. rewrite <- map_rev. destruct (rev iq); reflexivity.
Qed.
(** exported qubit indices lie inside the box *)
Lemma py_index_in A (l : list A) z x : py_index l z = Ok x -> In x l.
Proof. unfold py_index. destruct (_ && _)%bool; [|discriminate]. destruct (nth_error l _) eqn:E; [|discriminate]. intros [= <-]. eapply nth_error_In; eauto. Qed.
Lemma mapM_index_in l : forall zs xs, mapM (py_index (A:=nat) l) zs = Ok xs -> forall x, In x xs -> In x l.
Proof.
  induction zs as [|z zs IH]; intros xs; cbn; [intros [= <-] x []|]. destruct (py_index l z) eqn:E; [|discriminate]. cbn. destruct (mapM _ zs) eqn:E2; [|discriminate]. cbn. intros [= <-] x [<-|Hx]; [eapply py_index_in; eauto|eauto].
Qed.
Lemma in_ins x y l : In x (ins_sorted y l) -> x = y \/ In x l.
Proof. induction l as [|z l IH]; cbn; [intuition|]. destruct (y <=? z); cbn; intuition. Qed.
Lemma in_sorted x l : In x (sorted_nat l) -> In x l.
Proof. induction l as [|z l IH]; cbn; auto. intro H. apply in_ins in H. intuition. Qed.
Lemma in_removelast A (x : A) l : In x (removelast l) -> In x l.
Proof. induction l as [|y [|z l] IH]; cbn; auto. intros [->|H]; [now left|right; apply IH, H]. Qed.
Lemma from_box_range b g : from_box b 0 = Ok g -> (forall i, In i (g_qubits g) -> i < List.length (q_dom b)) /\
  (forall l i, g_control g = Some l -> In i l -> i < List.length (q_dom b)) /\ (forall i, g_target g = Some i -> i < List.length (q_dom b)).
Proof.
  unfold from_box. set (w := List.length (q_dom b)). intro H.
  assert (B : forall i, In i (seq 0 w) -> i < w) by (intros i Hi; apply in_seq in Hi; lia).
  destruct (match b with QDag b0 => (b0, true) | _ => (b, false) end) as [box dg]. destruct box; try (injection H as <-; cbn; repeat split; [exact B|discriminate|discriminate]).
  destruct (mapM (py_index (seq 0 w)) _) as [iq|] eqn:E; cbn [bind] in H; [|discriminate]. match type of H with bind ?x _ = _ => destruct x end; cbn [bind] in H; [|discriminate]. injection H as <-. cbn.
  assert (B' : forall i, In i iq -> i < w) by (intros i Hi; apply B; eapply mapM_index_in; eauto). split; auto. split.
  - intros l i [= <-] Hi. apply B', in_removelast. now apply in_sorted.
  - unfold last_opt. intros i Hi. destruct (rev iq) eqn:Er; [discriminate|]. injection Hi as ->. apply B'. apply in_rev. rewrite Er. now left.
Qed.

(** ** The loop *)
Fixpoint fill (t : list wire) (avail : list nat) : list (option nat) :=
  match t with
  | [] => []
  | Bt :: t' => None :: fill t' avail
  | Qb :: t' => match avail with q :: a => Some q :: fill t' a | [] => None :: fill t' [] end
  end.
Lemma count_app s t : count_q (s ++ t) = count_q s + count_q t.
Proof. unfold count_q. now rewrite filter_app, app_length. Qed.
Lemma count_qubits n : count_q (qubits n) = n.
Proof. unfold count_q, qubits. induction n; cbn; auto. Qed.
Lemma fill_app s : forall t a b, count_q s = List.length a -> fill (s ++ t) (a ++ b) = fill s a ++ fill t b.
Proof.
  induction s as [|[] s IH]; intros t a b H; cbn.
  - destruct a; [reflexivity|discriminate].
  - destruct a as [|q a]; [discriminate|]. cbn. injection H as H. now rewrite IH by exact H.
  - now rewrite IH by exact H.
Qed.
Lemma fill_len t : forall a, List.length (fill t a) = List.length t.
Proof. induction t as [|[] t IH]; intro a; cbn; auto. destruct a; cbn; auto. Qed.
Lemma fill_qubits a : fill (qubits (List.length a)) a = map Some a.
Proof. induction a as [|q a IH]; cbn; [reflexivity|]. now rewrite <- IH. Qed.
Lemma remove_mid q a b : ~ In q a -> remove_first q (a ++ q :: b) = a ++ b.
Proof. induction a as [|x a IH]; cbn; intro H; [now rewrite Nat.eqb_refl|]. destruct (Nat.eqb_spec q x); [exfalso; auto|]. now rewrite IH by auto. Qed.
Lemma split_count l r (avail : list nat) : List.length avail = count_q (l ++ r) -> exists a b, avail = a ++ b /\ List.length a = count_q l /\ List.length b = count_q r.
Proof.
  intro H. rewrite count_app in H. exists (firstn (count_q l) avail), (skipn (count_q l) avail). rewrite firstn_skipn, firstn_length, skipn_length. repeat split; lia.
Qed.
Definition is_gate (b : qbox) : bool := negb (is_ket b) && negb (is_consumer b).
Lemma step_gate ci avail l b r g : is_gate b = true -> from_box b (List.length l) = Ok g ->
  readoff_step (ci, avail) (l, b, r) = Ok (CI (ci_total ci) (ci_gates ci ++ [g]) (ci_bitmap ci) (ci_postmap ci) (ci_discards ci), avail).
Proof. intros G E. unfold readoff_step. cbn [gl_box gl_left gl_right fst snd]. destruct b; try discriminate; rewrite E; reflexivity. Qed.
Lemma trace_gate n ws l b r ls : is_gate b = true -> trace n ws ((l, b, r) :: ls) = EGate b (firstn (List.length (q_dom b)) (skipn (List.length l) ws)) :: trace n ws ls.
Proof. intros G. destruct b; try discriminate; reflexivity. Qed.
Lemma first_mid A (a : list A) x b : firstn (List.length a) (a ++ x :: b) = a /\ skipn (S (List.length a)) (a ++ x :: b) = b.
Proof. split; [now rewrite firstn_app, firstn_all, Nat.sub_diag, app_nil_r|]. replace (S (List.length a)) with (List.length a + 1) by lia. now rewrite skipn_app, skipn_all2, Nat.add_comm, Nat.add_sub by lia. Qed.
Lemma combine_snoc A (l : list A) x k : combine (l ++ [x]) (seq k (List.length (l ++ [x]))) = combine l (seq k (List.length l)) ++ [(x, k + List.length l)].
Proof. revert k. induction l as [|y l IH]; intro k; cbn; [now rewrite Nat.add_0_r|]. rewrite IH. now rewrite <- Nat.add_succ_comm. Qed.
Definition exports (b : qbox) : Prop := exists g, from_box b 0 = Ok g.
(** what the loop adds to [ci], given the events [es] *)
Definition adds (ci ci' : cinfo) (avail avail' : list nat) (es : list event) : Prop :=
  exists ms ps ds gs,
    ci_total ci' = ci_total ci /\ ci_bitmap ci' = ci_bitmap ci ++ combine ms (seq (List.length (ci_bitmap ci)) (List.length ms)) /\ map Some ms = measured es /\
    ci_postmap ci' = ci_postmap ci ++ ps /\ map (fun p => (Some (fst p), snd p)) ps = posted es /\
    ci_discards ci' = ci_discards ci ++ ds /\ map Some ds = discarded es /\
    ci_gates ci' = ci_gates ci ++ gs /\ List.length gs = List.length (gated es) /\
    Permutation avail (ms ++ ds ++ avail').
Lemma loop ls : forall n t c ci avail, gchain q_dom q_cod t ls c -> Forall (fun x => is_ket (gl_box x) = false /\ circuit_box (gl_box x) /\ (is_gate (gl_box x) = true -> exports (gl_box x))) ls ->
  List.length avail = count_q t -> NoDup avail ->
  exists ci' avail', foldM readoff_step ls (ci, avail) = Ok (ci', avail') /\ adds ci ci' avail avail' (trace n (fill t avail) ls).
Proof.
  induction ls as [|[[l b] r] ls IH]; intros n t c ci avail Hc HF HL ND.
  - exists ci, avail. split; [reflexivity|]. exists [], [], [], []. cbn. rewrite !app_nil_r. repeat split; auto.
  - cbn [gchain] in Hc. destruct Hc as [-> Hc]. inversion HF as [|x y (Hk & Hcb & Hex) HF']; subst. cbn [gl_box fst snd] in *. cbn [foldM].
    destruct (is_gate b) eqn:Eg.
    + destruct (Hex eq_refl) as [g0 E0]. pose proof (from_box_shift b (List.length l)) as Eb. rewrite E0 in Eb. cbn [rmap] in Eb.
      rewrite (@step_gate ci avail l b r _ Eg Eb). cbn [bind]. destruct Hcb as [Hcb|[Hcb|[m [Dm Cm]]]]; [congruence|unfold is_gate in Eg; rewrite Hcb in Eg; destruct (is_ket b); discriminate|].
      rewrite Dm in *. rewrite Cm in Hc. rewrite trace_gate by auto.
      destruct (IH n _ _ (CI (ci_total ci) (ci_gates ci ++ [shift_gate (List.length l) g0]) (ci_bitmap ci) (ci_postmap ci) (ci_discards ci)) avail Hc HF' HL ND) as (ci' & av' & E & ms & ps & ds & gs & A1 & A2 & A3 & A4 & A5 & A6 & A7 & A8 & A9 & A10).
      exists ci', av'. split; [exact E|]. exists ms, ps, ds, (shift_gate (List.length l) g0 :: gs). cbn in A1, A2, A4, A6, A8 |- *. rewrite <- app_assoc in A8. repeat split; auto.
    + assert (Hq : is_consumer b = true) by (unfold is_gate in Eg; rewrite Hk in Eg; destruct (is_consumer b); auto; discriminate).
      assert (Db : q_dom b = [Qb]) by (destruct b; try discriminate; reflexivity). rewrite Db in *. cbn [app] in *.
      destruct (split_count (l:=l) (r:=Qb :: r) HL) as (a1 & a2 & -> & L1 & L2). destruct a2 as [|q a2]; [discriminate|]. assert (L3 : List.length a2 = count_q r) by (injection L2; auto).
      assert (Nq : ~ In q a1) by (intro Hin; apply NoDup_remove_2 in ND; apply ND, in_or_app; auto).
      assert (ND' : NoDup (a1 ++ a2)) by (eapply NoDup_remove_1; eauto).
      assert (Eq : nth_error (a1 ++ q :: a2) (count_q l) = Some q) by (rewrite <- L1, nth_error_app2, Nat.sub_diag by auto; reflexivity).
      assert (Fl : fill (l ++ Qb :: r) (a1 ++ q :: a2) = fill l a1 ++ Some q :: fill r a2) by (rewrite fill_app by auto; reflexivity).
      assert (Ll : List.length l = List.length (fill l a1)) by now rewrite fill_len.
      rewrite Fl. pose proof (@first_mid _ (fill l a1) (Some q) (fill r a2)) as [FM1 FM2]. rewrite <- Ll in FM1, FM2.
      assert (Lb : lab (fill l a1 ++ Some q :: fill r a2) (List.length l) = Some q) by (unfold lab; rewrite Ll, app_nth2, Nat.sub_diag by auto; reflexivity).
      destruct b; try discriminate; cbn [q_cod app] in Hc; cbn [trace]; rewrite ?FM1, ?FM2, Lb; unfold readoff_step; cbn [gl_box gl_left gl_right fst snd]; rewrite Eq; cbn [bind]; rewrite (remove_mid a2 Nq).
      * destruct (IH n (l ++ r) _ (CI (ci_total ci) (ci_gates ci) (ci_bitmap ci ++ [(q, List.length (ci_bitmap ci))]) (ci_postmap ci ++ [(q, bit)]) (ci_discards ci)) (a1 ++ a2) Hc HF') as (ci' & av' & E & ms & ps & ds & gs & A1 & A2 & A3 & A4 & A5 & A6 & A7 & A8 & A9 & A10); auto. { rewrite app_length, count_app. change (count_q (Bt :: r)) with (count_q r). lia. }
        rewrite (@fill_app l r a1 a2 (eq_sym L1)) in A3, A5, A7, A9. exists ci', av'. split; [exact E|]. exists (q :: ms), ((q, bit) :: ps), ds, gs. cbn in A1, A2, A4, A6, A8 |- *. rewrite app_length in A2. cbn [List.length] in A2. rewrite <- app_assoc in A2, A4. rewrite Nat.add_1_r in A2. repeat split; auto; try (cbn; f_equal; assumption).
        rewrite <- Permutation_middle. now constructor.
      * destruct (IH n (l ++ r) _ (CI (ci_total ci) (ci_gates ci) (ci_bitmap ci) (ci_postmap ci) (ci_discards ci ++ [q])) (a1 ++ a2) Hc HF') as (ci' & av' & E & ms & ps & ds & gs & A1 & A2 & A3 & A4 & A5 & A6 & A7 & A8 & A9 & A10); auto. { rewrite app_length, count_app. change (count_q (Bt :: r)) with (count_q r). lia. }
        rewrite (@fill_app l r a1 a2 (eq_sym L1)) in A3, A5, A7, A9. exists ci', av'. split; [exact E|]. exists ms, ps, (q :: ds), gs. cbn in A1, A2, A4, A6, A8 |- *. rewrite <- app_assoc in A6. repeat split; auto; try (cbn; f_equal; assumption).
        rewrite <- !Permutation_middle. now constructor.
      * destruct (IH n (l ++ Bt :: r) _ (CI (ci_total ci) (ci_gates ci) (ci_bitmap ci ++ [(q, List.length (ci_bitmap ci))]) (ci_postmap ci) (ci_discards ci)) (a1 ++ a2) Hc HF') as (ci' & av' & E & ms & ps & ds & gs & A1 & A2 & A3 & A4 & A5 & A6 & A7 & A8 & A9 & A10); auto. { rewrite app_length, count_app. change (count_q (Bt :: r)) with (count_q r). lia. }
        rewrite (@fill_app l (Bt :: r) a1 a2 (eq_sym L1)) in A3, A5, A7, A9. cbn [fill] in *. exists ci', av'. split; [exact E|]. exists (q :: ms), ps, ds, gs. cbn in A1, A2, A4, A6, A8 |- *. rewrite app_length in A2. cbn [List.length] in A2. rewrite <- app_assoc in A2. rewrite Nat.add_1_r in A2. repeat split; auto; try (cbn; f_equal; assumption).
        rewrite <- Permutation_middle. now constructor.
Qed.
Lemma gated_consumers ls : forall n ws, Forall (fun x => is_consumer (gl_box x) = true) ls -> gated (trace n ws ls) = [].
Proof.
  induction ls as [|[[l b] r] ls IH]; intros n ws H; [reflexivity|]. inversion H; subst. cbn [gl_box fst snd] in *. destruct b; try discriminate; cbn; apply IH; auto.
Qed.
Lemma lab_map_seq N k m i : k + m <= N -> i < m -> lab (firstn m (skipn k (map Some (seq 0 N)))) i = Some (k + i).
Proof.
  intros H Hi. unfold lab. rewrite skipn_map, firstn_map. replace (firstn m (skipn k (seq 0 N))) with (seq k m).
  - rewrite nth_indep with (d' := Some 0) by (rewrite map_length, seq_length; auto). rewrite map_nth, seq_nth by auto. reflexivity.
  - replace N with (k + (m + (N - k - m))) by lia. rewrite !seq_app. cbn [Nat.add]. rewrite skipn_app, skipn_all2 by (rewrite seq_length; lia). rewrite seq_length, Nat.sub_diag. cbn [skipn app].
    rewrite firstn_app, firstn_all2, seq_length, Nat.sub_diag by (rewrite seq_length; lia). cbn. now rewrite app_nil_r.
Qed.
Lemma map_some_lab qs k m l : (forall i, i < m -> lab qs i = Some (k + i)) -> (forall i, In i l -> i < m) -> map Some (map (fun i => k + i) l) = map (lab qs) l.
Proof. intros H B. rewrite map_map. apply map_ext_in. intros i Hi. now rewrite H by auto. Qed.
Lemma shift_renames b g0 N k : from_box b 0 = Ok g0 -> k + List.length (q_dom b) <= N ->
  renames g0 (shift_gate k g0) (firstn (List.length (q_dom b)) (skipn k (map Some (seq 0 N)))).
Proof.
  intros E H. destruct (from_box_range E) as (B1 & B2 & B3). set (qs := firstn _ _).
  assert (L : forall i, i < List.length (q_dom b) -> lab qs i = Some (k + i)) by (intros i Hi; apply lab_map_seq; auto).
  unfold renames, shift_gate; cbn. split; [apply (map_some_lab L B1)|]. split; [|split; [|auto]].
  - destruct (g_control g0) as [l|] eqn:El; cbn; [|reflexivity]. f_equal. apply (map_some_lab L). intros i Hi. eapply B2; eauto.
  - destruct (g_target g0) as [i|] eqn:Ei; cbn; [|reflexivity]. f_equal. now rewrite L by auto.
Qed.
Lemma gates_ok ls : forall n N c ci ci' av', gchain q_dom q_cod (qubits N) ls c -> Forall (fun x => is_ket (gl_box x) = false /\ circuit_box (gl_box x) /\ (is_gate (gl_box x) = true -> exports (gl_box x))) ls ->
  gates_first (map (@gl_box wire qbox) ls) -> foldM readoff_step ls (ci, seq 0 N) = Ok (ci', av') ->
  exists gs, ci_gates ci' = ci_gates ci ++ gs /\ Forall2 (fun g bq => exists g0, from_box (fst bq) 0 = Ok g0 /\ renames g0 g (snd bq)) gs (gated (trace n (map Some (seq 0 N)) ls)).
Proof.
  induction ls as [|[[l b] r] ls IH]; intros n N c ci ci' av' Hc HF HG E.
  - cbn in E. injection E as <- <-. exists []. rewrite app_nil_r. split; auto. constructor.
  - destruct (is_gate b) eqn:Eg.
    + cbn [gchain] in Hc. destruct Hc as [Ht Hc]. inversion HF as [|x y (Hk & Hcb & Hex) HF']; subst. cbn [gl_box fst snd] in *. destruct (Hex Eg) as [g0 E0].
      pose proof (from_box_shift b (List.length l)) as Eb. rewrite E0 in Eb. cbn [rmap] in Eb. cbn [foldM] in E. rewrite (@step_gate ci _ l b r _ Eg Eb) in E. cbn [bind] in E.
      destruct Hcb as [Hcb|[Hcb|[m [Dm Cm]]]]; [congruence|unfold is_gate in Eg; rewrite Hcb in Eg; destruct (is_ket b); discriminate|].
      rewrite Cm, <- Dm, <- Ht in Hc. destruct (IH n N c _ ci' av' Hc HF' (proj2 HG) E) as (gs & A1 & A2). cbn in A1. rewrite <- app_assoc in A1. cbn [app] in A1.
      exists (shift_gate (List.length l) g0 :: gs). split; auto. rewrite trace_gate by auto. cbn. constructor; [|exact A2]. exists g0. cbn. split; auto. apply shift_renames; auto.
      assert (HN : N = List.length (l ++ q_dom b ++ r)) by (rewrite <- Ht; now rewrite len_qubits). rewrite !app_length in HN. lia.
    + assert (Hq : is_consumer b = true) by (inversion HF as [|x y (Hk & Hcb & Hex) HF']; subst; cbn in Hk; unfold is_gate in Eg; rewrite Hk in Eg; destruct (is_consumer b); auto; discriminate).
      assert (HA : Forall (fun x => is_consumer (gl_box x) = true) ((l, b, r) :: ls)).
      { constructor; auto. destruct HG as [HG _]. specialize (HG Hq). now rewrite Forall_map in HG. }
      destruct (@loop ((l, b, r) :: ls) n (qubits N) c ci (seq 0 N) Hc HF) as (ci2 & av2 & E2 & ms & ps & ds & gs & A1 & A2 & A3 & A4 & A5 & A6 & A7 & A8 & A9 & A10); [now rewrite seq_length, count_qubits|apply seq_NoDup|].
      rewrite E in E2. injection E2 as <- <-. rewrite gated_consumers in A9 by auto. destruct gs; [|discriminate]. exists []. split; auto. rewrite gated_consumers by auto. constructor.
Qed.
(** ** The initial kets *)
Lemma kets_phase ls : forall rest k t, Forall (fun x => is_ket (gl_box x) = true /\ gl_right x = []) ls -> gchain q_dom q_cod (qubits k) ls t ->
  t = qubits (k + List.length ls) /\ trace k (map Some (seq 0 k)) (ls ++ rest) = trace (k + List.length ls) (map Some (seq 0 (k + List.length ls))) rest /\
  forall st, foldM readoff_step ls st = Ok st.
Proof.
  induction ls as [|[[l b] r] ls IH]; intros rest k t HF Hc.
  - cbn in *. rewrite Nat.add_0_r. auto.
  - inversion HF as [|x y [H1 H2] HF']; subst. cbn in H1, H2, Hc. subst r. destruct b; try discriminate. destruct Hc as [Ht Hc]. cbn in Ht, Hc. rewrite app_nil_r in Ht. subst l.
    replace (qubits k ++ [Qb]) with (qubits (S k)) in Hc by (change [Qb] with (qubits 1); rewrite qubits_app, Nat.add_1_r; reflexivity).
    destruct (IH rest (S k) t HF' Hc) as (E1 & E2 & E3). cbn [List.length]. rewrite Nat.add_succ_r. cbn [Nat.add] in E1, E2. split; auto. split.
    + rewrite <- E2. cbn [app trace]. rewrite len_qubits. rewrite firstn_all2, skipn_all2 by (rewrite map_length, seq_length; lia).
      replace (map Some (seq 0 k) ++ [Some k]) with (map Some (seq 0 (S k))); [reflexivity|]. rewrite seq_S, map_app. reflexivity.
    + intros [ci av]. cbn [foldM]. unfold readoff_step at 1. cbn. apply E3.
Qed.
Lemma circuital_kets d : is_circuital d = true -> exists ks rest, glayers d = ks ++ rest /\ gdom d = [] /\
  List.length ks = List.length (filter (fun x => is_ket (gl_box x)) (glayers d)) /\ Forall (fun x => is_ket (gl_box x) = true /\ gl_right x = []) ks /\ Forall (fun x => is_ket (gl_box x) = false) rest.
Proof.
  unfold is_circuital. destruct (gdom d); [|discriminate]. set (ls := glayers d). set (num := List.length (filter (fun x => is_ket (gl_box x)) ls)).
  destruct (forallb (fun x => is_ket (gl_box x)) (firstn num ls)) eqn:E1; cbn [negb]; [|discriminate]. destruct (forallb _ (firstn num ls)) eqn:E2 in |- *; cbn [negb]; [|discriminate]. intros _.
  assert (Ln : List.length (firstn num ls) = num). { rewrite firstn_length_le; auto. unfold num. clear. induction ls as [|x ls IH]; cbn; [lia|]. destruct (is_ket (gl_box x)); cbn; lia. }
  exists (firstn num ls), (skipn num ls). rewrite firstn_skipn. split; auto. split; auto. split; auto. rewrite forallb_forall in E1, E2. split.
  - apply Forall_forall. intros x Hx. split; auto. specialize (E2 x Hx). destruct (gl_right x); auto; discriminate.
  - assert (C : num = List.length (filter (fun x => is_ket (gl_box x)) (firstn num ls)) + List.length (filter (fun x => is_ket (gl_box x)) (skipn num ls))).
    { rewrite <- app_length, <- filter_app, firstn_skipn. reflexivity. }
    assert (F : filter (fun x => is_ket (gl_box x)) (firstn num ls) = firstn num ls).
    { revert E1. generalize (firstn num ls). clear. induction l as [|x l IH]; cbn; auto. intro H. rewrite (H x) by now left. now rewrite IH by auto. }
    rewrite F, Ln in C. assert (C0 : List.length (filter (fun x => is_ket (gl_box x)) (skipn num ls)) = 0) by lia. revert C0. generalize (skipn num ls). clear.
    induction l as [|x l IH]; cbn; [constructor|]. destruct (is_ket (gl_box x)) eqn:E; [discriminate|]. constructor; auto.
Qed.
Lemma readoff_ok d : qwf d -> is_circuital d = true -> Forall circuit_box (gboxes d) -> (forall b, In b (gboxes d) -> is_ket b = false -> is_consumer b = false -> exports b) ->
  exists ci ms ps ds rest,
    readoff d = Ok ci /\ ci_total ci = List.length (filter is_ket (gboxes d)) /\
    ci_bitmap ci = combine ms (seq 0 (List.length ms)) /\ map Some ms = measured (trace 0 [] (glayers d)) /\
    ci_postmap ci = ps /\ map (fun p => (Some (fst p), snd p)) ps = posted (trace 0 [] (glayers d)) /\
    ci_discards ci = ds /\ map Some ds = discarded (trace 0 [] (glayers d)) /\
    Permutation (seq 0 (ci_total ci)) (ms ++ ds ++ rest) /\
    (gates_first (filter (fun b => negb (is_ket b)) (gboxes d)) ->
     Forall2 (fun g bq => exists g0, from_box (fst bq) 0 = Ok g0 /\ renames g0 g (snd bq)) (ci_gates ci) (gated (trace 0 [] (glayers d)))).
Proof.
  intros W HC HB HX. destruct (circuital_kets HC) as (ks & rest & EL & Ed & Lk & HK & HR). unfold readoff. rewrite HC. cbn [negb].
  assert (HT : List.length (filter (fun x => is_ket (gl_box x)) (glayers d)) = List.length (filter is_ket (gboxes d))).
  { unfold gboxes. clear. induction (glayers d) as [|x l IH]; cbn; auto. destruct (is_ket (gl_box x)); cbn; auto. }
  rewrite <- Lk. unfold GDiagSpec.gwf in W. rewrite EL, Ed in W. apply gchain_app in W. destruct W as (m & W1 & W2). destruct (@kets_phase ks rest 0 m HK W1) as (-> & ET & EF). cbn [Nat.add seq map] in ET, W2.
  set (N := List.length ks) in *. rewrite EL, ET. 
  assert (HF : Forall (fun x => is_ket (gl_box x) = false /\ circuit_box (gl_box x) /\ (is_gate (gl_box x) = true -> exports (gl_box x))) rest).
  { apply Forall_forall. intros x Hx. rewrite Forall_forall in HR, HB. assert (Hb : In (gl_box x) (gboxes d)) by (unfold gboxes; rewrite EL; apply in_map, in_or_app; auto). split; [now apply HR|]. split; [now apply HB|]. unfold is_gate. rewrite (HR x Hx). cbn. destruct (is_consumer (gl_box x)) eqn:E; [discriminate|]. auto. }
  destruct (@loop rest N (qubits N) _ (CI N [] [] [] []) (seq 0 N) W2 HF) as (ci & av & E & ms & ps & ds & gs & A1 & A2 & A3 & A4 & A5 & A6 & A7 & A8 & A9 & A10); [now rewrite seq_length, count_qubits|apply seq_NoDup|].
  assert (FE : fill (qubits N) (seq 0 N) = map Some (seq 0 N)). { rewrite <- (seq_length N 0) at 1. apply fill_qubits. } rewrite FE in *. cbn in A1, A2, A4, A6, A8.
  exists ci, ms, ps, ds, av. rewrite foldM_app, EF. cbn [bind]. match goal with |- rmap fst ?x = Ok _ /\ _ => replace x with (@Ok (cinfo * list nat) (ci, av)) by (symmetry; exact E) end. cbn [rmap fst]. split; [reflexivity|]. split; [rewrite A1, <- HT; exact Lk|]. do 6 (split; [assumption|]). split; [rewrite A1; assumption|].
  intro HG. assert (HG' : gates_first (map (@gl_box wire qbox) rest)).
  { assert (Q : filter (fun b => negb (is_ket b)) (gboxes d) = map (@gl_box wire qbox) rest); [|now rewrite <- Q]. unfold gboxes. rewrite EL, map_app, filter_app.
    replace (filter (fun b => negb (is_ket b)) (map gl_box ks)) with (@nil qbox). 2:{ clear - HK. induction HK as [|x l [H _] _ IH]; cbn; auto. now rewrite H. } cbn.
    clear - HR. induction HR as [|x l H _ IH]; cbn; auto. rewrite H. cbn. now rewrite IH. }
  destruct (@gates_ok rest N N _ (CI N [] [] [] []) ci av W2 HF HG' E) as (gs' & G1 & G2). cbn in G1. now rewrite G1.
Qed.
(** ** Phases *)
Lemma from_box_crot a p d off : a <> AY -> d <> 0%Z -> exists g, from_box (QCtl (QRot a p) d) off = Ok g /\ g_phase g = PhParam p.
Proof.
  intros Ha Hd. assert (H1 : one_qubit (ctl_base (QRot a p))) by (split; [split|]; reflexivity || exact I).
  destruct (place (QCtl (QRot a p) d) off) as [cs t] eqn:EP. destruct (@from_box_ctl (QRot a p) d off cs t H1 (conj Hd I) I EP) as (ph & E).
  eexists. split; [exact E|]. cbn. unfold from_box in E. destruct (mapM _ _) in E; [|discriminate]. cbn [bind] in E. destruct a; [| contradiction |]; cbn in E; congruence.
Qed.
Lemma from_box_cry p d off : d <> 0%Z -> exists g, from_box (QCtl (QRot AY p) d) off = Ok g /\ g_type g = "CRy"%string /\ g_phase g = PhNone.
Proof.
  intros Hd. assert (H1 : one_qubit (ctl_base (QRot AY p))) by (split; [split|]; reflexivity || exact I).
  destruct (place (QCtl (QRot AY p) d) off) as [cs t] eqn:EP. destruct (@from_box_ctl (QRot AY p) d off cs t H1 (conj Hd I) I EP) as (ph & E).
  eexists. split; [exact E|]. split; [reflexivity|]. cbn. unfold from_box in E. destruct (mapM _ _) in E; [|discriminate]. cbn in E. congruence.
Qed.
