(** Proofs: [to_circuital] keeps the circuit. *)
From Coq Require Import QArith Sorted.
From Verif Require Import PyBase PyFacts GDiag GDiagSpec GDiagFacts QModel QSpec QFacts QGen QReadSpec QCirc CirModel CirSpec CirList CirPull CirRun CirLoop.
Close Scope Q_scope. Set Implicit Arguments. Unset Strict Implicit.

(** ** sorting the post-selections by qubit *)
Definition end_event (b : qbox) (v : nat) : visit := match b with QDisc => VDisc v | _ => VPost v end.
Lemma end_box b : cb b -> is_end b = true -> b = QBra false \/ b = QDisc.
Proof. intros C E. destruct (box_kinds C) as [-> |[-> |[-> |[-> |G]]]]; auto; try discriminate. destruct G as (_ & _ & _ & _ & G & _). congruence. Qed.
Lemma end_visit b names ws l r : b = QBra false \/ b = QDisc -> visit_layer (names, ws) (l, b, r) = (names, del (len l) ws, [end_event b (nth (len l) ws 0)]).
Proof. intros [-> | ->]; reflexivity. Qed.
Lemma remove_del l : forall k i, NoDup l -> nth_error l k = Some i -> remove_first i l = del k l.
Proof.
  induction l as [|y l IH]; intros [|k] i ND H; cbn in *; try discriminate.
  - injection H as <-. now rewrite Nat.eqb_refl.
  - inversion ND as [|? ? Ni ND']; subst. destruct (Nat.eqb_spec i y) as [-> |_]; [apply nth_error_In in H; contradiction|]. f_equal. now apply IH.
Qed.
Lemma del_perm (l : list nat) : forall k i, nth_error l k = Some i -> Permutation l (i :: del k l).
Proof. induction l as [|y l IH]; intros [|k] i H; cbn in *; try discriminate; [injection H as <-; auto|]. rewrite (IH k i H) at 1. apply perm_swap. Qed.
Lemma del_map A B (f : A -> B) l : forall k, del k (map f l) = map f (del k l).
Proof. induction l as [|y l IH]; intros [|k]; cbn; auto. now rewrite IH. Qed.
Lemma keyed_ok W posts : forall idx keyed, qch (len idx) posts 0 -> ends posts -> NoDup idx -> exists ks,
  foldM post_key posts (idx, keyed) = Ok ([], keyed ++ ks) /\ Permutation (map fst ks) idx /\ map snd ks = posts /\
  forall names, follow (names, map (fun i => nth i W 0) idx) posts = (names, [], map (fun p => end_event (gl_box (snd p)) (nth (fst p) W 0)) ks).
Proof.
  induction posts as [|[[l b] r] posts IH]; intros idx keyed H E ND; cbn [qch] in H.
  - destruct idx; [|discriminate]. exists []. rewrite app_nil_r. repeat split; auto.
  - destruct H as (C & L & R & En & H). inversion E as [|? ? E1 E2]; subst. cbn in E1. pose proof (end_box C E1) as B.
    assert (D1 : len (q_dom b) = 1) by (destruct B as [-> | ->]; auto). assert (D2 : len (q_cod b) = 0) by (destruct B as [-> | ->]; auto). rewrite D1 in En. rewrite D2 in H.
    destruct (nth_error idx (len l)) as [i|] eqn:Ei; [|apply nth_error_None in Ei; lia].
    destruct (IH (del (len l) idx) (keyed ++ [(i, (l, b, r))])) as (ks & K1 & K2 & K3 & K4); auto.
    { rewrite del_len by lia. now replace (len idx - 1) with (len l + 0 + len r) by lia. }
    { apply (Permutation_NoDup (del_perm Ei)) in ND. now inversion ND. }
    exists ((i, (l, b, r)) :: ks). split; [|split; [|split]].
    + cbn [foldM post_key]. unfold gl_left at 1. cbn [fst snd]. rewrite Ei. cbn [bind]. rewrite (remove_del ND Ei). etransitivity; [exact K1|rewrite <- app_assoc; reflexivity].
    + cbn [map fst]. rewrite K2. symmetry. now apply del_perm.
    + cbn [map snd]. now rewrite K3.
    + intro names. cbn [follow]. rewrite (end_visit _ _ _ _ B), del_map, K4. cbn [app map fst snd]. unfold gl_box at 2. cbn [fst snd].
      replace (nth (len l) (map (fun i0 => nth i0 W 0) idx) 0) with (nth i W 0); [reflexivity|].
      symmetry. apply nth_error_nth. rewrite nth_error_map, Ei. reflexivity.
Qed.
Lemma insert_perm p (l : list (nat * qlayer)) : Permutation (insert_keyed p l) (p :: l).
Proof. induction l as [|q l IH]; cbn; auto. destruct (fst p <=? fst q); auto. rewrite IH. apply perm_swap. Qed.
Lemma sort_perm (l : list (nat * qlayer)) : Permutation (fold_right insert_keyed [] l) l.
Proof. induction l as [|p l IH]; cbn; auto. now rewrite insert_perm, IH. Qed.
Lemma insert_sorted p l : StronglySorted le (map fst l) -> StronglySorted le (map fst (insert_keyed p l)).
Proof.
  induction l as [|q l IH]; cbn; intro S; [repeat constructor|]. destruct (Nat.leb_spec (fst p) (fst q)) as [L|L]; cbn.
  - constructor; auto. constructor; auto. inversion S as [|? ? _ F]; subst. eapply Forall_impl; [|exact F]. cbn. lia.
  - inversion S as [|? ? S' F]; subst. constructor; [now apply IH|]. eapply Permutation_Forall; [apply Permutation_map, Permutation_sym, insert_perm|]. cbn. constructor; auto. lia.
Qed.
Lemma sort_sorted l : StronglySorted le (map fst (fold_right insert_keyed [] l)).
Proof. induction l; cbn; [constructor|]. now apply insert_sorted. Qed.
Lemma sorted_seq m : forall l a, StronglySorted le l -> Permutation l (seq a m) -> l = seq a m.
Proof.
  induction m as [|m IH]; intros l a S H; cbn [seq] in *; [now apply Permutation_sym, Permutation_nil in H|].
  destruct l as [|x l]; [now apply Permutation_nil in H|]. inversion S as [|? ? S' F]; subst.
  assert (x = a).
  { assert (I1 : In x (a :: seq (Datatypes.S a) m)) by (rewrite <- H; now left). assert (I2 : In a (x :: l)) by (rewrite H; now left).
    destruct I1 as [|I1]; auto. destruct I2 as [|I2]; auto. apply in_seq in I1. rewrite Forall_forall in F. specialize (F _ I2). lia. }
  subst x. f_equal. apply IH; auto. eapply Permutation_cons_inv, H.
Qed.
Definition place_end (N : nat) (p : nat * qlayer) : qlayer := ([], gl_box (snd p), qubits (N - S (fst p))).
Lemma placed_ok N ks : forall a U, map fst ks = seq a (len ks) -> len U = len ks -> a + len ks = N -> Forall (fun p => cb (gl_box (snd p)) /\ is_end (gl_box (snd p)) = true) ks ->
  qch (len ks) (map (place_end N) ks) 0 /\
  forall names, follow (names, U) (map (place_end N) ks) = (names, [], map (fun p => end_event (gl_box (snd p)) (nth (fst p - a) U 0)) ks).
Proof.
  induction ks as [|[i x] ks IH]; intros a U HK HU HN F; cbn [map qch follow List.length seq fst snd] in *.
  - destruct U; [auto|discriminate].
  - injection HK as -> HK. destruct U as [|u U]; [discriminate|]. cbn in HU. inversion F as [|? ? (C & E) F']; subst. cbn [snd] in C, E. pose proof (end_box C E) as B.
    destruct (IH (S a) U HK) as (I1 & I2); auto; try lia.
    assert (D1 : len (q_dom (gl_box x)) = 1) by (destruct B as [-> | ->]; auto). assert (D2 : len (q_cod (gl_box x)) = 0) by (destruct B as [-> | ->]; auto).
    unfold place_end at 1 3. cbn [fst snd]. replace (a + S (len ks) - S a) with (len ks) by lia. split.
    + split; [exact C|]. rewrite qubits_len, D1, D2. split; [reflexivity|]. split; [reflexivity|]. split; [cbn; lia|]. exact I1.
    + intro names. rewrite (end_visit _ _ _ _ B). cbn [List.length nth del]. rewrite I2. cbn [app map fst snd]. rewrite Nat.sub_diag. cbn [nth]. do 2 f_equal.
      apply map_ext_in. intros [j y] I. cbn [fst snd]. assert (IJ : In j (seq (S a) (len ks))) by (rewrite <- HK; now apply (in_map fst _ (j, y))). apply in_seq in IJ.
      replace (j - a) with (S (j - S a)) by lia. reflexivity.
Qed.
Lemma qch_cb ls : forall n t, qch n ls t -> Forall (fun x => cb (gl_box x)) ls.
Proof. induction ls as [|[[l b] r] ls IH]; intros n t H; cbn [qch] in H; constructor; [apply H|]. eapply IH, H. Qed.
Lemma end_event_gate b v : is_vgate (end_event b v) = false. Proof. destruct b; reflexivity. Qed.
Lemma gates_ends A (f : A -> visit) l : (forall x, is_vgate (f x) = false) -> gates_of (map f l) = [] /\ ends_of (map f l) = map f l.
Proof. intro H. induction l as [|x l [I1 I2]]; cbn; auto. rewrite H. cbn. split; [exact I1|]. f_equal. exact I2. Qed.
Lemma nth_self (W : list nat) : map (fun i => nth i W 0) (seq 0 (len W)) = W.
Proof.
  induction W as [|w W IH]; cbn [List.length seq map]; auto. cbn [nth]. f_equal. rewrite <- seq_shift, map_map. exact IH.
Qed.
Definition tidy (gates posts : list qlayer) : res (list qlayer) := match rev gates with [] => Ok posts | last :: _ => construct_measurements last posts end.
Lemma tidy_ok N gates posts P nm Wf es : straight gates -> qch N gates N -> qch N posts 0 -> ends posts -> len P = N -> follow ([], P) (gates ++ posts) = (nm, Wf, es) ->
  exists posts' es' nm' Wf', tidy gates posts = Ok posts' /\ qch N posts' 0 /\ ends posts' /\ len posts' = len posts /\
    (gates <> [] -> map gl_left posts' = repeat [] N) /\ follow ([], P) (gates ++ posts') = (nm', Wf', es') /\ same_events es es'.
Proof.
  intros S CG CP EP LP F. unfold tidy. destruct (rev gates) as [|y ys] eqn:V.
  - exists posts, es, nm, Wf. repeat split; auto. apply (f_equal (@rev _)) in V. rewrite rev_involutive in V. cbn in V. congruence.
  - apply (f_equal (@rev _)) in V. rewrite rev_involutive in V. cbn [rev] in V. set (G := rev ys) in V.
    assert (T : gl_cod q_cod y = qubits N) by (rewrite V in CG; apply (qch_last CG)).
    destruct (straight_follow P S CG) as (W & e0 & FS).
    assert (LW : len W = N).
    { destruct (pull_ok CG (Nat.le_0_l N)) as (? & ? & _ & _ & _ & _ & _ & _ & _ & Q8). destruct (straight_nk S) as (K0 & _). destruct (Q8 [] P 0 LP) as (? & W9 & ? & Q1 & Q2 & _); [lia|]. rewrite FS in Q1. now injection Q1 as <- <- <-. }
    destruct (@keyed_ok W posts (seq 0 N) []) as (ks & K1 & K2 & K3 & K4); [now rewrite seq_length|auto|apply seq_NoDup|].
    set (so := fold_right insert_keyed [] ks). assert (PS : Permutation so ks) by apply sort_perm.
    assert (LK : len ks = N) by (apply Permutation_length in K2; now rewrite map_length, seq_length in K2).
    assert (SK : map fst so = seq 0 N) by (apply sorted_seq; [apply sort_sorted|rewrite (Permutation_map fst PS); exact K2]).
    assert (LS : len so = N) by (now rewrite (Permutation_length PS)).
    assert (FC : Forall (fun p => cb (gl_box (snd p)) /\ is_end (gl_box (snd p)) = true) so).
    { eapply Permutation_Forall; [apply Permutation_sym, PS|]. apply Forall_forall. intros p I. assert (Ip : In (snd p) posts) by (rewrite <- K3; now apply in_map).
      split; [pose proof (qch_cb CP) as Q|pose proof EP as Q]; unfold ends in Q; rewrite Forall_forall in Q; now apply Q. }
    destruct (@placed_ok N so 0 W) as (Q1 & Q2); [etransitivity; [exact SK|f_equal; symmetry; exact LS]|etransitivity; [exact LW|symmetry; exact LS]|exact LS|exact FC|].
    exists (map (place_end N) so), (e0 ++ map (fun p => end_event (gl_box (snd p)) (nth (fst p) W 0)) so), [], []. split; [|split; [|split; [|split; [|split; [|split]]]]].
    + unfold construct_measurements. rewrite T, qubits_len, K1. cbn [bind app]. f_equal. apply map_ext. intros [i x]. unfold place_end. cbn [filter List.length repeat fst snd]. unfold qubits. now rewrite skipn_repeat.
    + replace (qch N) with (qch (len so)) by (f_equal; exact LS). exact Q1.
    + apply Forall_forall. intros p I. apply in_map_iff in I as (z & <- & I). rewrite Forall_forall in FC. now apply FC.
    + rewrite map_length. etransitivity; [exact LS|]. rewrite <- K3, map_length. symmetry. exact LK.
    + intros _. rewrite map_map. assert (X : forall l : list (nat * qlayer), map (fun x => gl_left (place_end N x)) l = repeat [] (len l)) by (clear; induction l; cbn; auto; now f_equal). etransitivity; [apply X|]. f_equal. exact LS.
    + rewrite follow_app, FS, Q2. f_equal. f_equal. apply map_ext. intros. now rewrite Nat.sub_0_r.
    + rewrite follow_app, FS in F. specialize (K4 []). rewrite <- LW, nth_self in K4. rewrite K4 in F. injection F as _ _ <-. split.
      * rewrite !gates_app. f_equal. etransitivity; [apply gates_ends; intros; apply end_event_gate|symmetry; apply gates_ends; intros; apply end_event_gate].
      * rewrite !ends_app. apply Permutation_app_head.
        match goal with |- Permutation (ends_of (map ?f _)) _ => rewrite (proj2 (gates_ends (f := f) so ltac:(intros; apply end_event_gate))), (proj2 (gates_ends (f := f) ks ltac:(intros; apply end_event_gate))) end.
        now apply Permutation_map.
Qed.

(** ** replacing preparations in 1 and post-selections on 1 *)
Lemma qubits_app_inv a : forall n b, qubits n = a ++ b -> a = qubits (len a) /\ b = qubits (len b) /\ n = len a + len b.
Proof.
  induction a as [|x a IH]; intros n b H; cbn in *; [subst b; unfold qubits; now rewrite repeat_length|]. destruct n as [|n]; [discriminate|]. cbn in H. injection H as <- H.
  destruct (IH n b H) as (E1 & E2 & E3). split; [f_equal; exact E1|]. split; [exact E2|]. lia.
Qed.
Lemma gX_like : cb gX. Proof. split; [cbn; auto|split; discriminate]. Qed.
Lemma circ_cod b : circ_box b -> q_cod b = qubits (len (q_cod b)).
Proof.
  intro C. destruct b; cbn [circ_box] in C; try reflexivity; try (destruct C as (E & D); rewrite <- E; destruct D as [D|D]; rewrite D; reflexivity).
  - cbn [q_cod]. now rewrite repeat_length.
  - destruct C as (-> & ->). reflexivity.
Qed.
Lemma remove_layer l b r : circ_box b -> l = qubits (len l) -> r = qubits (len r) ->
  qch (len l + len (q_dom b) + len r) (remove_ketbra1 (l, b, r)) (len l + len (q_cod b) + len r) /\ nk (remove_ketbra1 (l, b, r)) = nk [(l, b, r)] /\ remove_ketbra1 (l, b, r) <> [] /\
  forall names ws, len ws = len l + len (q_dom b) + len r -> nk [(l, b, r)] <= len names -> follow (names, ws) (remove_ketbra1 (l, b, r)) = follow (names, ws) [(l, b, r)].
Proof.
  intros C L R. assert (D : cb b \/ b = QKet true \/ b = QBra true).
  { destruct b; try (left; split; [exact C|split; discriminate]); destruct bit; auto; left; (split; [exact C|split; discriminate]). }
  destruct D as [D|[-> | ->]].
  - replace (remove_ketbra1 (l, b, r)) with [(l, b, r)] by (destruct D as (_ & N1 & N2); destruct b; try reflexivity; destruct bit; congruence || reflexivity).
    split; [cbn [qch]; repeat split; auto; apply D|]. split; [auto|]. split; [discriminate|auto].
  - cbn [remove_ketbra1]. split; [|split; [reflexivity|split; [discriminate|]]].
    + cbn [qch]. split; [exact cb_ket|]. split; [auto|]. split; [auto|]. split; [reflexivity|]. split; [exact gX_like|]. repeat split; auto.
    + intros [|w names] ws W N; [cbn in N; lia|]. cbn in W. cbn [follow visit_layer gl_left gl_box fst snd]. cbn [positions q_dom gX q1 List.length seq map ctl_base gl_box snd fst app].
      change (positions gX (len l)) with [len l]. cbn [map]. rewrite nth_ins_eq by lia. reflexivity.
  - cbn [remove_ketbra1]. split; [|split; [reflexivity|split; [discriminate|]]].
    + cbn [qch]. split; [exact gX_like|]. split; [auto|]. split; [auto|]. split; [reflexivity|]. split; [repeat split; discriminate|]. repeat split; auto.
    + intros names ws W N. reflexivity.
Qed.
Lemma qubits_cat a b c : qubits a ++ qubits b ++ qubits c = qubits (a + b + c). Proof. unfold qubits. now rewrite !repeat_app, app_assoc. Qed.
Lemma remove_ok ls : forall n t, gchain q_dom q_cod (qubits n) ls t -> Forall circ_box (map gl_box ls) -> exists n',
  t = qubits n' /\ qch n (flat_map remove_ketbra1 ls) n' /\ nk (flat_map remove_ketbra1 ls) = nk ls /\ (ls <> [] -> flat_map remove_ketbra1 ls <> []) /\
  forall names ws, len ws = n -> nk ls <= len names -> follow (names, ws) (flat_map remove_ketbra1 ls) = follow (names, ws) ls.
Proof.
  induction ls as [|[[l b] r] ls IH]; intros n t H F.
  - cbn in H. subst t. exists n. cbn. repeat split; auto.
  - cbn [gchain] in H. destruct H as (E & H). inversion F as [|? ? C F']; subst. cbn in C. apply qubits_app_inv in E as (L & E & En). apply eq_sym in E. destruct (qubits_app_inv E) as (_ & R & Em).
    replace (l ++ q_cod b ++ r) with (qubits (len l + len (q_cod b) + len r)) in H by (rewrite <- qubits_cat; rewrite <- L, <- R, <- (circ_cod C); reflexivity).
    destruct (IH _ _ H F') as (n' & T & I1 & I2 & I3 & I4). destruct (remove_layer C L R) as (R1 & R2 & R3 & R4).
    rewrite app_length in En. replace n with (len l + len (q_dom b) + len r) by lia.
    exists n'. cbn [flat_map]. split; [exact T|]. split; [apply qch_app; eauto|]. change (nk ((l, b, r) :: ls)) with (nk ([(l, b, r)] ++ ls)). rewrite !nk_app. split; [lia|].
    split; [intros _ X; apply app_eq_nil in X; tauto|]. intros names ws W N. rewrite follow_app.
    destruct (pull_ok R1 (Nat.le_0_l _)) as (? & ? & _ & _ & _ & _ & _ & _ & _ & Q8). destruct (Q8 names ws 0 W) as (names1 & ws1 & e1 & Q1 & Q2 & Q3 & _); [lia|]. rewrite Q1.
    rewrite R4 in Q1 by (auto; lia). cbn [follow] in Q1 |- *. destruct (visit_layer (names, ws) (l, b, r)) as [st1 e]. injection Q1 as -> E1. rewrite app_nil_r in E1. subst e1. rewrite I4 by lia. reflexivity.
Qed.

(** ** the whole function *)
Lemma circ_dom b : circ_box b -> q_dom b = qubits (len (q_dom b)).
Proof.
  intro C. destruct b; cbn [circ_box] in C; try reflexivity; try (destruct C as (_ & [D|D]); rewrite D; reflexivity).
  - cbn [q_dom]. now rewrite repeat_length.
  - destruct C as (-> & ->). reflexivity.
Qed.
Lemma qch_gchain ls : forall n t, qch n ls t -> gchain q_dom q_cod (qubits n) ls (qubits t).
Proof.
  induction ls as [|[[l b] r] ls IH]; intros n t H; cbn [qch gchain] in *; [now subst|]. destruct H as ((C & _) & L & R & -> & H). apply IH in H. rewrite <- qubits_cat in H. rewrite <- L, <- R, <- (circ_cod C) in H.
  split; [|exact H]. rewrite <- qubits_cat. now rewrite <- L, <- R, <- (circ_dom C).
Qed.
Lemma rebuild s xs : forall t pre t', gchain q_dom q_cod t xs t' -> foldM qthen (map one_layer xs) (GD s t pre) = Ok (GD s t' (pre ++ xs)).
Proof.
  induction xs as [|[[l b] r] xs IH]; intros t pre t' H; cbn [map foldM gchain] in *; [subst; now rewrite app_nil_r|]. destruct H as (-> & H).
  unfold qthen at 1. rewrite (gthen_eq wire_eqb_ok) by reflexivity. cbn [bind gdom gcod one_layer glayers]. unfold gl_cod, gl_left, gl_box, gl_right. cbn [fst snd].
  etransitivity; [apply (IH _ _ _ H)|]. now rewrite <- app_assoc.
Qed.
Lemma kq_qch a n : qch a (kq a n) (a + n).
Proof.
  revert a. induction n as [|n IH]; intro a; cbn [kq seq map qch]; [lia|]. split; [exact cb_ket|]. rewrite qubits_len. split; [auto|]. split; [reflexivity|]. cbn [q_dom q_cod List.length].
  split; [lia|]. replace (a + 1 + 0) with (S a) by lia. replace (a + S n) with (S a + n) by lia. apply IH.
Qed.
Lemma ins_end A (x : A) l : ins (len l) x l = l ++ [x]. Proof. induction l; cbn; auto. now f_equal. Qed.
Lemma kq_follow n : forall names rem ws, len names = n -> follow (names ++ rem, ws) (kq (len ws) n) = (rem, ws ++ names, []).
Proof.
  induction n as [|n IH]; intros names rem ws H; destruct names as [|w names]; try discriminate; cbn [kq seq map follow]; [now rewrite app_nil_r|]. injection H as H.
  unfold visit_layer, gl_left, gl_box. cbn [app fst snd]. rewrite qubits_len, ins_end. replace (S (len ws)) with (len (ws ++ [w])) by (rewrite app_length; cbn; lia).
  change (map _ (seq (len (ws ++ [w])) n)) with (kq (len (ws ++ [w])) n). rewrite IH by auto. now rewrite <- app_assoc.
Qed.
Lemma nk_kets (d : qdiag) : kets_of d = nk (glayers d).
Proof. unfold kets_of, nk, gboxes. induction (glayers d) as [|x l IH]; cbn; auto. destruct (is_ket (gl_box x)); cbn; auto. Qed.
Lemma kq_nk a n : nk (kq a n) = n. Proof. revert a. induction n as [|n IH]; intro a; auto. unfold nk, kq in *. cbn. now rewrite IH. Qed.
Lemma ends_nk ls : ends ls -> nk ls = 0.
Proof. unfold nk. induction 1 as [|x ls E H IH]; cbn; auto. destruct (gl_box x); try discriminate; auto. Qed.
Theorem to_circuital_ok d n t : qtyped d (qubits n) t -> Forall circ_box (gboxes d) -> n <> 0 \/ glayers d <> [] ->
  exists c d' M, init_and_discard d = Ok c /\ (forall fuel, M <= fuel -> to_circuital fuel d = Ok d') /\ qtyped d' [] [] /\ circuital d' /\ same_circuit c d' /\ Forall circ_box (gboxes c) /\ Forall circ_box (gboxes d') /\ qtyped c [] [] /\
    exists gates posts, glayers d' = kq 0 (kets_of c) ++ gates ++ posts /\ straight gates /\ ends posts /\ (gates <> [] -> map gl_left posts = repeat [] (kets_of c)).
Proof.
  intros T F NE. destruct (init_and_discard_ok T) as (c & pre & post & Ec & Tc & Lc & Bpre & Bpost).
  assert (Fc : Forall circ_box (map gl_box (glayers c))).
  { rewrite Lc, !map_app, Bpre, Bpost. apply Forall_app. split; [apply Forall_map, Forall_forall; intros x I; unfold qubits in I; apply repeat_spec in I; subst x; exact I|].
    apply Forall_app. split; [exact F|]. apply Forall_forall. intros x I. apply repeat_spec in I. subst x. exact I. }
  assert (Nt : repeat Bt (count_b t) = []).
  { destruct T as (W & D & C). unfold gwf in W. rewrite D, C in W. destruct (remove_ok W F) as (n' & -> & _). unfold count_b, qubits. assert (X : forall m, filter (wire_eqb Bt) (repeat Qb m) = []) by (induction m; auto). now rewrite X. }
  rewrite Nt in Tc. pose proof Tc as Tc0. destruct Tc as (Wc & Dc & Cc). unfold gwf in Wc. rewrite Dc, Cc in Wc. destruct (remove_ok (n := 0) Wc Fc) as (n' & Hn & I1 & I2 & I3 & I4).
  destruct n'; [clear Hn|discriminate]. set (ls := flat_map remove_ketbra1 (glayers c)) in *. set (N := nk ls).
  assert (NC : glayers c <> []).
  { rewrite Lc. intro X. apply app_eq_nil in X as (X1 & X2). apply app_eq_nil in X2 as (X2 & _). destruct NE as [NE|NE]; auto. subst pre. destruct n; [auto|discriminate]. }
  specialize (I3 NC). destruct (follow (seq 0 N, []) ls) as [[nm Wf] es] eqn:FL.
  destruct (@loop_ok (len ls * 3 ^ ne ls) ls 0 [] [] 0 0 (seq 0 N) [] N nm Wf es) as (g & p & P & nm2 & W2 & es2 & L1 & L2 & L3 & L4 & L5 & L6 & L7 & L8 & L9); auto; try (constructor; fail); try reflexivity.
  { now rewrite seq_length. } { cbn [app]. now rewrite app_nil_r. }
  assert (LP : len P = N) by (rewrite (Permutation_length L6); apply seq_length).
  destruct (tidy_ok L2 L3 L4 L5 LP L7) as (p' & es3 & nm3 & W3 & T1 & T2 & T3 & T4 & T5 & T6 & T7).
  assert (CH : qch 0 (kq 0 N ++ g ++ p') 0) by (apply qch_app; exists N; split; [apply kq_qch|apply qch_app; exists N; auto]). pose proof (qch_cb CH) as CB. apply qch_gchain in CH.
  set (d' := GD (@nil wire) (@nil wire) (kq 0 N ++ g ++ p') : qdiag).
  assert (KC : kets_of c = N) by (unfold N; rewrite I2; apply nk_kets).
  exists c, d', (len ls * 3 ^ ne ls). split; [exact Ec|]. split; [|split; [|split; [|split; [|split; [|split; [|split]]]]]].
  - intros fuel Hf. unfold to_circuital. rewrite Ec. cbn [bind]. fold ls. change (@nil qlayer) with (kq 0 0) at 1. rewrite (L1 fuel Hf). cbn [bind].
    fold (tidy g p). rewrite T1. cbn [bind]. destruct (kq 0 N ++ g ++ p') as [|[[l b] r] xs] eqn:X.
    { exfalso. apply (f_equal (@len qlayer)) in X. rewrite !app_length in X. unfold kq in X. rewrite map_length, seq_length in X. cbn in X. apply L9; [destruct ls; [congruence|cbn; lia]|rewrite <- T4; lia]. }
    cbn [map]. cbn [gchain qubits repeat] in CH. destruct CH as (E1 & CH). change (one_layer (l, b, r)) with (GD (l ++ q_dom b ++ r) (l ++ q_cod b ++ r) [(l, b, r)]). rewrite <- E1.
    etransitivity; [apply (rebuild _ _ CH)|]. reflexivity.
  - split; [exact CH|split; reflexivity].
  - split; [reflexivity|]. exists (kq 0 N), (g ++ p'). split; [reflexivity|]. split; [|split].
    + apply Forall_forall. intros x I. unfold kq in I. apply in_map_iff in I as (i & <- & _). split; reflexivity.
    + apply Forall_app. split; [eapply Forall_impl; [|exact L2]; intros x (K & _); exact K|]. eapply Forall_impl; [|exact T3]. intros x E. cbn in E. destruct (gl_box x); auto; discriminate.
    + assert (GE : forall i x, nth_error (g ++ p') i = Some x -> is_end (gl_box x) = true -> len g <= i).
      { intros i x Hx Ex. destruct (Nat.le_gt_cases (len g) i) as [|Hi]; auto. rewrite nth_error_app1 in Hx by auto. apply nth_error_In in Hx. unfold straight in L2. rewrite Forall_forall in L2. destruct (L2 x Hx). congruence. }
      intros i j k x z y Hij Hjk Hi Hj _ Ei _. assert (G := GE _ _ Hi Ei). rewrite nth_error_app2 in Hj by lia. apply nth_error_In in Hj. unfold ends in T3. rewrite Forall_forall in T3. specialize (T3 z Hj).
      cbn in T3. destruct (gl_box z); auto; discriminate.
  - exists P. rewrite KC. split; [exact L6|]. split; [|].
    + rewrite nk_kets. cbn [glayers d']. rewrite !nk_app, kq_nk, (proj1 (straight_nk L2)), (ends_nk T3). lia.
    + assert (V1 : visits P d' = es3).
      { unfold visits. cbn [glayers d']. rewrite follow_app. change (kq 0 N) with (kq (len (@nil nat)) N). pose proof (kq_follow [] [] LP) as K. rewrite app_nil_r in K. rewrite K. cbn [app]. now rewrite T6. }
      assert (V2 : visits (seq 0 N) c = es).
      { unfold visits. rewrite <- (I4 (seq 0 N) []) by (auto; rewrite seq_length; unfold N; lia). fold ls. now rewrite FL. }
      rewrite V1, V2. destruct L8 as (A1 & A2), T7 as (B1 & B2). split; [congruence|now rewrite B2].
  - exact Fc.
  - apply Forall_map. eapply Forall_impl; [|exact CB]. intros x (K & _). exact K.
  - exact Tc0.
  - exists g, p'. rewrite KC. split; [reflexivity|]. split; [exact L2|]. split; [exact T3|exact T5].
Qed.
