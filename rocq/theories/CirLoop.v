(** Proofs: the loop of [to_circuital]. *)
From Coq Require Import QArith.
From Verif Require Import PyBase PyFacts GDiag GDiagSpec GDiagFacts QModel QSpec QFacts CirModel CirSpec CirList CirPull CirRun QReadSpec.
Close Scope Q_scope. Set Implicit Arguments. Unset Strict Implicit.

Definition kq (a n : nat) : list qlayer := map (fun i => (qubits i, QKet false, @nil wire)) (seq a n).
Lemma kq_app a m n : kq a (m + n) = kq a m ++ kq (a + m) n. Proof. unfold kq. now rewrite seq_app, map_app. Qed.
Lemma straight_len ls : forall n n', straight ls -> qch n ls n' -> n' = n.
Proof.
  induction ls as [|[[l b] r] ls IH]; intros n n' S H; cbn [qch] in H; auto. inversion S as [|? ? (K & E) S']; subst. destruct H as (C & _ & _ & -> & H). cbn in K, E.
  rewrite (IH _ _ S' H). rewrite (straight_dims C K E). reflexivity.
Qed.
Lemma straight_nk ls : straight ls -> nk ls = 0 /\ ne ls = 0.
Proof. unfold nk, ne. induction 1 as [|x ls (K & E) H (I1 & I2)]; cbn; auto. rewrite K, E. auto. Qed.
Lemma nk_straight ls : nk ls = 0 -> ne ls = 0 -> straight ls.
Proof.
  unfold nk, ne. induction ls as [|x ls IH]; cbn; intros H1 H2; [constructor|].
  destruct (is_ket (gl_box x)) eqn:K; [discriminate|]. destruct (is_end (gl_box x)) eqn:E; [discriminate|]. constructor; auto. now apply IH.
Qed.
Lemma straight_follow ls : forall n n' ws, straight ls -> qch n ls n' -> exists ws' es, forall names, follow (names, ws) ls = (names, ws', es).
Proof.
  induction ls as [|[[l b] r] ls IH]; intros n n' ws S H; cbn [qch] in H; [exists ws, []; reflexivity|].
  inversion S as [|? ? (K & E) S']; subst. destruct H as (C & _ & _ & _ & H). cbn in K, E.
  assert (V : exists ws1 e1, forall names, visit_layer (names, ws) (l, b, r) = (names, ws1, e1)).
  { destruct (box_kinds C) as [-> |[-> |[-> |[-> |G]]]]; try discriminate; [exists (swp (len l) ws), []; reflexivity|]. destruct G as (G & _). eexists _, _. intro names. apply G. }
  destruct V as (ws1 & e1 & V). destruct (IH _ _ ws1 S' H) as (ws2 & e2 & F). exists ws2, (e1 ++ e2). intro names. cbn [follow]. now rewrite V, F.
Qed.
Lemma firstn_repeat A (x : A) k n : k <= n -> firstn k (repeat x n) = repeat x k.
Proof. revert n. induction k as [|k IH]; intros [|n] H; cbn; auto; [lia|]. f_equal. apply IH. lia. Qed.
Lemma skipn_repeat A (x : A) k n : skipn k (repeat x n) = repeat x (n - k).
Proof. revert n. induction k as [|k IH]; intros [|n]; cbn; auto. Qed.

(** ** a preparation *)
Lemma mapM_total A B (f : A -> res B) (g : A -> B) l : (forall x, In x l -> f x = Ok (g x)) -> mapM f l = Ok (map g l).
Proof. induction l as [|x l IH]; intro H; cbn; auto. rewrite H by now left. cbn. rewrite IH by (intros; apply H; now right). reflexivity. Qed.
Lemma add_qubit_ok n k gates : k <= n -> straight gates -> qch n gates n -> exists gates',
  add_qubit (kq 0 n) (QKet false) k gates = Ok (kq 0 (S n), gates') /\ straight gates' /\ qch (S n) gates' (S n) /\
  forall ws names v, len ws = n -> exists ws' es, len ws' = n /\ follow (names, ws) gates = (names, ws', es) /\ follow (names, ins k v ws) gates' = (names, ins k v ws', es).
Proof.
  intros Hk SG C. destruct (pull_ok C Hk) as (g' & q' & P1 & P2 & P3 & P4 & P5 & P6 & P7 & P8). destruct (straight_nk SG) as (K & E). specialize (P7 K E). subst q'.
  exists g'. split; [|split; [apply nk_straight; congruence|split; [exact P3|]]].
  - unfold add_qubit.
    set (f := (fun x => (if k <=? len (gl_left x) then ins k Qb (gl_left x) else gl_left x, gl_box x, gl_right x)) : qlayer -> qlayer).
    rewrite (mapM_total (g := f)).
    2:{ intros x I. unfold f. destruct (Nat.leb_spec k (len (gl_left x))); [rewrite w_insert_ok by auto; reflexivity|destruct x as [[? ?] ?]; reflexivity]. }
    cbn [bind]. rewrite P1. cbn [bind fst]. do 2 f_equal. replace n with (k + (n - k)) by lia. rewrite kq_app, map_app, Nat.add_0_l.
    assert (L1 : map f (kq 0 k) = kq 0 k).
    { unfold kq. rewrite map_map. apply map_ext_in. intros i I. apply in_seq in I. unfold f, gl_left. cbn. rewrite qubits_len. destruct (Nat.leb_spec k i); [lia|reflexivity]. }
    assert (L2 : map f (kq k (n - k)) = kq (S k) (n - k)).
    { unfold kq. rewrite map_map, <- seq_shift, map_map. apply map_ext_in. intros i I. apply in_seq in I. unfold f, gl_left. cbn [fst snd gl_box gl_right]. rewrite qubits_len. destruct (Nat.leb_spec k i); [|lia]. now rewrite ins_qubits. }
    rewrite L1, L2. assert (LK : len (kq 0 k) = k) by (unfold kq; now rewrite map_length, seq_length).
    match goal with |- firstn k ?u ++ ?z :: skipn k ?u = _ => change (@firstn qlayer k u ++ (z : qlayer) :: @skipn qlayer k u = kq 0 (S (k + (n - k)))) end.
    rewrite firstn_app, skipn_app, LK, Nat.sub_diag, firstn_O, skipn_O, firstn_all2, skipn_all2, app_nil_r by lia. cbn [app].
    replace (S (k + (n - k))) with (k + S (n - k)) by lia. rewrite kq_app. reflexivity.
  - intros ws names v W. destruct (P8 names ws v W) as (names' & ws' & es & F1 & F2 & F3 & F4); [lia|]. destruct (straight_follow ws SG C) as (ws2 & es2 & F). specialize (F names). rewrite F in F1. injection F1 as <- <- <-. eauto.
Qed.

(** ** a post-selection or discard *)
Lemma qch_last ls y : forall n t, qch n (ls ++ [y]) t -> gl_cod q_cod y = qubits t.
Proof.
  intros n t H. apply qch_app in H as (m & _ & H). destruct y as [[l b] r]. cbn [qch] in H. destruct H as (C & L & R & _ & <-).
  unfold gl_cod, gl_left, gl_right, gl_box. cbn [fst snd].
  assert (E : q_cod b = qubits (len (q_cod b))).
  { destruct C as (C & _). destruct b; cbn [circ_box] in C; try reflexivity; try (destruct C as (E & D); rewrite <- E; destruct D as [D|D]; rewrite D; reflexivity).
    - cbn [q_cod]. now rewrite repeat_length.
    - destruct C as (-> & ->). reflexivity. }
  rewrite L, R, E at 1. unfold qubits. now rewrite <- !repeat_app, Nat.add_assoc.
Qed.
Lemma build_ok l b r ls q t : l = qubits (len l) -> r = qubits (len r) -> pull (len l) ls = Ok (ls, q) \/ ls <> [] -> qch (S (len l + len r)) ls (S t) -> q <= t -> (ls = [] -> q = len l) ->
  build_left_right q (l, b, r) ls = Ok (qubits q, b, qubits (t - q)).
Proof.
  intros L R _ C Q E. unfold build_left_right. destruct (rev ls) as [|y ys] eqn:V.
  - apply (f_equal (@rev _)) in V. rewrite rev_involutive in V. cbn in V. subst ls. cbn [qch] in C. rewrite E by auto. replace (t - len l) with (len r) by lia. now rewrite <- L, <- R.
  - apply (f_equal (@rev _)) in V. rewrite rev_involutive in V. cbn [rev] in V. subst ls. rewrite (qch_last C). rewrite qubits_len. pose proof Q as Q'. 
    destruct (Nat.ltb_spec q (S t)); [|lia]. unfold qubits. rewrite firstn_repeat, skipn_repeat by lia. reflexivity.
Qed.
Lemma ins_del A (l : list A) z : forall k, k < len l -> ins k (nth k l z) (del k l) = l.
Proof. induction l as [|a l IH]; intros [|k] H; cbn in *; auto; try lia. f_equal. apply IH. lia. Qed.

(** ** the loop *)
Definition ends (ls : list qlayer) : Prop := Forall (fun x => is_end (gl_box x) = true) ls.
Lemma gates_app a b : gates_of (a ++ b) = gates_of a ++ gates_of b. Proof. apply filter_app. Qed.
Lemma ends_app a b : ends_of (a ++ b) = ends_of a ++ ends_of b. Proof. apply filter_app. Qed.
Lemma pow3_pos e : 1 <= 3 ^ e. Proof. induction e; cbn; lia. Qed.
Definition same_events (es es' : list visit) : Prop := gates_of es' = gates_of es /\ Permutation (ends_of es') (ends_of es).
Lemma loop_ok M : forall ls n gates posts t t0 rem P N nm Wf es,
  len ls * 3 ^ ne ls <= M -> straight gates -> qch n gates n -> qch n ls t -> qch t posts t0 -> ends posts ->
  len P = n -> Permutation (P ++ rem) (seq 0 N) -> len rem = nk ls -> follow (rem, P) (gates ++ ls ++ posts) = (nm, Wf, es) ->
  exists gates' posts' P' nm' Wf' es',
    (forall fuel, M <= fuel -> circ_loop fuel ls (kq 0 n) gates posts = Ok (kq 0 N, gates', posts')) /\
    straight gates' /\ qch N gates' N /\ qch N posts' t0 /\ ends posts' /\ Permutation P' (seq 0 N) /\
    follow ([], P') (gates' ++ posts') = (nm', Wf', es') /\ same_events es es' /\ (len gates + len ls + len posts + n <> 0 -> len gates' + len posts' + N <> 0).
Proof.
  induction M as [M IH] using lt_wf_ind. intros ls n gates posts t t0 rem P N nm Wf es HM HG CG CL CP EP LP PP LR F. destruct ls as [|[[l b] r] ls].
  - cbn in CL, LR. subst t. destruct rem; [|discriminate]. rewrite app_nil_r in PP. assert (n = N) by (apply Permutation_length in PP; rewrite seq_length in PP; lia). subst n. rewrite H in *. clear H.
    exists gates, posts, P, nm, Wf, es. split; [intros [|fuel] _; reflexivity|]. repeat split; auto. cbn. lia.
  - cbn [qch] in CL. destruct CL as (C & L & R & En & CL). cbn [List.length] in HM.
    destruct M as [|M]; [match type of HM with _ * ?e <= _ => assert (1 <= e) by apply pow3_pos end; nia|].
    assert (KD : b = QKet false \/ is_end b = true \/ (is_ket b = false /\ is_end b = false)).
    { destruct (box_kinds C) as [-> |[-> |[-> |[-> |G]]]]; auto. right. right. destruct G as (_ & _ & _ & G1 & G2 & _). auto. }
    destruct KD as [-> |[B|(B1 & B2)]].
    + (* preparation *)
      cbn in En, CL. assert (Hk : len l <= n) by lia. destruct (add_qubit_ok Hk HG CG) as (g' & A1 & A2 & A3 & A4).
      unfold nk in LR. cbn in LR. fold (nk ls) in LR. destruct rem as [|w rem]; [discriminate|].
      destruct (A4 P (w :: rem) w LP) as (W & eg & W1 & W2 & _). destruct (A4 P rem w LP) as (W' & eg' & W1' & W2' & W3').
      destruct (straight_follow P HG CG) as (W0 & e0 & FS). rewrite FS in W2, W2'. injection W2 as <- <-. injection W2' as <- <-.
      rewrite follow_app, FS in F. cbn [app follow] in F.
      change (visit_layer (w :: rem, W0) (l, QKet false, r)) with (rem, ins (len l) w W0, @nil visit) in F. cbv beta iota in F.
      destruct (follow (rem, ins (len l) w W0) (ls ++ posts)) as [[nm1 Wf1] es1] eqn:F1.
      destruct (IH M) with (ls := ls) (n := S n) (gates := g') (posts := posts) (t := t) (t0 := t0) (rem := rem) (P := ins (len l) w P) (N := N) (nm := nm1) (Wf := Wf1) (es := e0 ++ es1)
        as (g2 & p2 & P2 & nm2 & Wf2 & es2 & I1 & I2 & I3 & I4 & I5 & I6 & I7 & I8 & I9); auto.
      * match type of HM with _ * 3 ^ ?e <= _ => change e with (ne ls) in HM end. pose proof (pow3_pos (ne ls)). nia.
      * now replace (S n) with (len l + 1 + len r) by lia.
      * rewrite ins_len. auto.
      * rewrite <- PP. rewrite ins_eq by lia. rewrite <- (firstn_skipn (len l) P) at 3. rewrite <- !app_assoc. apply Permutation_app_head. cbn [app]. apply Permutation_middle.
      * rewrite follow_app, W3', F1. reflexivity.
      * exists g2, p2, P2, nm2, Wf2, es2. split; [|split; [exact I2|split; [exact I3|split; [exact I4|split; [exact I5|split; [exact I6|split; [exact I7|split; [|lia]]]]]]]].
        -- intros [|fuel] Hf; [lia|]. cbn [circ_loop gl_box gl_left fst snd]. rewrite A1. cbn [bind fst snd]. apply I1. lia.
        -- injection F as _ _ <-. exact I8.
    + (* end *)
      assert (BK : b = QBra false \/ b = QDisc) by (destruct (box_kinds C) as [-> |[-> |[-> |[-> |G]]]]; auto; try discriminate; destruct G as (_ & _ & _ & _ & G & _); congruence).
      assert (D1 : len (q_dom b) = 1) by (destruct BK as [-> | ->]; auto). assert (D2 : len (q_cod b) = 0) by (destruct BK as [-> | ->]; auto). rewrite D1 in En. rewrite D2, Nat.add_0_r in CL.
      assert (V : exists f, (forall names ws l r, visit_layer (names, ws) (l, b, r) = (names, del (len l) ws, [f (nth (len l) ws 0)])) /\ forall v, is_vgate (f v) = false)
        by (destruct BK as [-> | ->]; [exists VPost|exists VDisc]; split; reflexivity).
      destruct V as (f & V & VG). assert (Hq : len l <= len l + len r) by lia.
      destruct (pull_ok CL Hq) as (ls1 & q' & P1 & P2 & P3 & P4 & P5 & P6 & P7 & P8).
      assert (BO : build_left_right q' (l, b, r) ls1 = Ok (qubits q', b, qubits (t - q'))).
      { apply build_ok; auto; [destruct ls1; [left|now right]|].
        - destruct ls; [|cbn in P6; lia]. cbn in P1. injection P1 as <-. reflexivity.
        - intros ->. destruct ls; [|cbn in P6; lia]. cbn in P1. now injection P1 as <-. }
      assert (KB : is_ket b = false) by (destruct BK as [-> | ->]; auto). unfold nk in LR. cbn in LR. rewrite KB in LR. fold (nk ls) in LR.
      destruct (straight_follow P HG CG) as (W0 & e0 & FS). assert (LW : len W0 = n).
      { destruct (pull_ok CG (Nat.le_0_l n)) as (? & ? & _ & _ & _ & _ & _ & _ & _ & Q8). destruct (straight_nk HG) as (K0 & _). destruct (Q8 [] P 0 LP) as (? & W9 & ? & Q1 & Q2 & _); [lia|]. rewrite FS in Q1. now injection Q1 as <- <- <-. }
      rewrite follow_app, FS in F. cbn [app follow] in F. rewrite V in F. cbv beta iota in F. rewrite follow_app in F. set (v := nth (len l) W0 0) in *.
      destruct (P8 rem (del (len l) W0) v) as (rem2 & W2 & e2 & F1 & F2 & F3 & F4); [rewrite del_len; lia|lia|]. rewrite F1 in F. cbv beta iota in F.
      destruct (follow (rem2, W2) posts) as [[nm3 W3] e3] eqn:F5.
      set (y := (qubits q', b, qubits (t - q'))).
      assert (VY : visit_layer (rem2, ins q' v W2) y = (rem2, W2, [f v])) by (unfold y; rewrite V, qubits_len, del_ins, nth_ins_eq by lia; reflexivity).
      destruct (IH M) with (ls := ls1) (n := n) (gates := gates) (posts := y :: posts) (t := S t) (t0 := t0) (rem := rem) (P := P) (N := N) (nm := nm3) (Wf := W3) (es := e0 ++ e2 ++ [f v] ++ e3)
        as (g2 & p2 & Pn2 & nm2 & Wf2 & es2 & I1 & I2 & I3 & I4 & I5 & I6 & I7 & I8 & I9); auto.
      * rewrite P5. unfold ne in HM. cbn in HM. rewrite B in HM. cbn [List.length] in HM. fold (ne ls) in HM. rewrite Nat.pow_succ_r' in HM. pose proof (pow3_pos (ne ls)). nia.
      * now replace n with (S (len l + len r)) by lia.
      * cbn [qch]. unfold y. split; [exact C|]. rewrite !qubits_len, D1, D2. split; [reflexivity|]. split; [reflexivity|]. split; [lia|]. now replace (q' + 0 + (t - q')) with t by lia.
      * constructor; auto.
      * lia.
      * rewrite follow_app, FS, follow_app. unfold v in F4. rewrite ins_del in F4 by lia. fold v in F4. rewrite F4. cbn [follow]. rewrite VY, F5. reflexivity.
      * exists g2, p2, Pn2, nm2, Wf2, es2. split; [|split; [exact I2|split; [exact I3|split; [exact I4|split; [exact I5|split; [exact I6|split; [exact I7|split; [|cbn in *; lia]]]]]]]].
        -- intros [|fuel] Hf; [lia|]. cbn [circ_loop]. unfold gl_box, gl_left. cbn [fst snd]. 
           replace (match b with QKet _ => _ | _ => _ end) with (do o <- pull (len l) ls; do y <- build_left_right (snd o) (l, b, r) (fst o); circ_loop fuel (fst o) (kq 0 n) gates (y :: posts)) by (destruct BK as [-> | ->]; reflexivity).
           rewrite P1. cbn [bind fst snd]. rewrite BO. cbn [bind]. apply I1. lia.
        -- injection F as _ _ <-. destruct I8 as (J1 & J2). split.
           ++ assert (Y1 : gates_of [f v] = []) by (cbn; now rewrite VG). change (f v :: e2 ++ e3) with ([f v] ++ e2 ++ e3). rewrite J1, !gates_app, Y1. reflexivity.
           ++ assert (Y1 : ends_of [f v] = [f v]) by (cbn; now rewrite VG). change (f v :: e2 ++ e3) with ([f v] ++ e2 ++ e3). rewrite J2, !ends_app, Y1. apply Permutation_app_head. rewrite !app_assoc. apply Permutation_app_tail, Permutation_app_comm.
    + (* gate *)
      assert (DD := straight_dims C B1 B2). assert (NK : nk ((l, b, r) :: ls) = nk ls) by (unfold nk; cbn; now rewrite B1). assert (NE : ne ((l, b, r) :: ls) = ne ls) by (unfold ne; cbn; now rewrite B2).
      destruct (IH M) with (ls := ls) (n := n) (gates := gates ++ [(l, b, r)]) (posts := posts) (t := t) (t0 := t0) (rem := rem) (P := P) (N := N) (nm := nm) (Wf := Wf) (es := es)
        as (g2 & p2 & P2 & nm2 & Wf2 & es2 & I1 & I2 & I3 & I4 & I5 & I6 & I7 & I8 & I9); auto.
      * match type of HM with _ * 3 ^ ?e <= _ => change e with (ne ((l, b, r) :: ls)) in HM end. rewrite NE in HM. pose proof (pow3_pos (ne ls)). nia.
      * apply Forall_app. split; auto.
      * apply qch_app. exists n. split; auto. cbn [qch]. repeat split; auto; try apply C. lia.
      * rewrite En. now rewrite DD.
      * rewrite <- NK. exact LR.
      * now rewrite <- app_assoc.
      * exists g2, p2, P2, nm2, Wf2, es2. split; [|split; [exact I2|split; [exact I3|split; [exact I4|split; [exact I5|split; [exact I6|split; [exact I7|split; [exact I8|]]]]]]]].
        -- intros [|fuel] Hf; [lia|]. cbn [circ_loop]. unfold gl_box at 1. cbn [fst snd].
           replace (match b with QKet _ => _ | _ => _ end) with (circ_loop fuel ls (kq 0 n) (gates ++ [(l, b, r)]) posts) by (destruct b; auto; discriminate). apply I1. lia.
        -- intro. apply I9. rewrite app_length. cbn in *. lia.
Qed.
