(** Proofs: pulling a qubit through a circuit. *)
From Coq Require Import QArith.
From Verif Require Import PyBase PyFacts GDiag GDiagSpec GDiagFacts QModel QSpec QFacts CirModel CirSpec CirList CirPull QReadSpec.
Close Scope Q_scope. Set Implicit Arguments. Unset Strict Implicit.

(** boxes left after [remove_ketbra1] *)
Definition cb (b : qbox) : Prop := circ_box b /\ b <> QKet true /\ b <> QBra true.
(** layers of qubits, [n] wires to [n'] wires *)
Fixpoint qch (n : nat) (ls : list qlayer) (n' : nat) : Prop :=
  match ls with
  | [] => n = n'
  | (l, b, r) :: ls' => cb b /\ l = qubits (len l) /\ r = qubits (len r) /\ n = len l + len (q_dom b) + len r /\
      qch (len l + len (q_cod b) + len r) ls' n'
  end.
Definition nk (ls : list qlayer) : nat := len (filter (fun x => is_ket (gl_box x)) ls).
Definition ne (ls : list qlayer) : nat := len (filter (fun x => is_end (gl_box x)) ls).
Definition straight (ls : list qlayer) : Prop := Forall (fun x => is_ket (gl_box x) = false /\ is_end (gl_box x) = false) ls.

Lemma qch_app a : forall n b n', qch n (a ++ b) n' <-> exists m, qch n a m /\ qch m b n'.
Proof.
  induction a as [|[[l x] r] a IH]; intros n b n'; cbn [qch app].
  - split; [intro; exists n; auto|intros (m & -> & H); auto].
  - split.
    + intros (H1 & H2 & H3 & H4 & H). apply IH in H as (m & Ha & Hb). exists m. repeat split; auto; apply H1.
    + intros (m & (H1 & H2 & H3 & H4 & Ha) & Hb). repeat split; auto; try apply H1. apply IH. now exists m.
Qed.
Lemma follow_app a : forall st b, follow st (a ++ b) = (let '(st1, es) := follow st a in let '(st2, es') := follow st1 b in (st2, es ++ es')).
Proof.
  induction a as [|x a IH]; intros st b; cbn [app follow]; [now destruct (follow st b)|]. destruct (visit_layer st x) as [st1 e1]. rewrite IH.
  destruct (follow st1 a) as [st2 e2]. destruct (follow st2 b) as [st3 e3]. now rewrite app_assoc.
Qed.
Lemma nk_app a b : nk (a ++ b) = nk a + nk b. Proof. unfold nk. now rewrite filter_app, app_length. Qed.
Lemma ne_app a b : ne (a ++ b) = ne a + ne b. Proof. unfold ne. now rewrite filter_app, app_length. Qed.

(** ** kinds of boxes *)
Definition gate_like (b : qbox) : Prop :=
  (forall names ws l r, visit_layer (names, ws) (l, b, r) = (names, ws, [VGate (ctl_base b) (map (fun p => nth p ws 0) (positions b (len l)))])) /\
  len (q_cod b) = len (q_dom b) /\ (forall k p, In p (positions b k) -> k <= p < k + len (q_dom b)) /\ is_ket b = false /\ is_end b = false /\
  (len (q_dom b) <= 1 \/ exists c d, b = QCtl c d /\ same_side b).
Lemma same_side_range b : same_side b -> forall k p, In p (positions b k) -> k <= p < k + len (q_dom b).
Proof.
  intros H. apply positions_range. destruct H as [H|H]; [now apply left_wire|]. unfold right_controls in H.
  destruct b; try contradiction. destruct b; try (destruct H as (D & B & B2); cbn [has_wire]; split; [exact I|split; [lia|rewrite B; cbn; lia]]).
  destruct H as (D & D' & B & B2 & B3). cbn [has_wire q_dom]. rewrite repeat_length, B. cbn [List.length]. split; [|lia]. split; [|lia]. destruct b; try exact I. destruct B3.
Qed.
Lemma gate_mk b : (forall names ws l r, visit_layer (names, ws) (l, b, r) = (names, ws, [VGate (ctl_base b) (map (fun p => nth p ws 0) (positions b (len l)))])) ->
  len (q_cod b) = len (q_dom b) -> len (q_dom b) <= 1 -> (forall k, positions b k = seq k (len (q_dom b))) -> is_ket b = false -> is_end b = false -> gate_like b.
Proof.
  intros H1 H2 H3 H4 H5 H6. split; [exact H1|split; [exact H2|split; [|split; [exact H5|split; [exact H6|now left]]]]].
  intros k p I. rewrite H4 in I. apply in_seq in I. exact I.
Qed.
Lemma box_kinds b : cb b -> b = QKet false \/ b = QBra false \/ b = QDisc \/ b = gSWAP \/ gate_like b.
Proof.
  intros (H & N1 & N2). destruct b; cbn [circ_box] in H; auto.
  3: { right; right; right; right. split; [intros; reflexivity|]. split; [reflexivity|]. split; [now apply same_side_range|]. split; [auto|]. split; [auto|]. right. now exists b, distance. }
  3,4: destruct bit; auto; congruence.
  8: { destruct H as (-> & ->). auto. }
  all: try (destruct H as (E & _); discriminate E).
  all: right; right; right; right; apply gate_mk; auto.
  all: destruct H as (E & D); try (now rewrite <- E); destruct D as [D|D]; rewrite D; cbn; auto.
Qed.

(** ** one layer *)
Lemma ins_qubits q : forall n, q <= n -> ins q Qb (qubits n) = qubits (S n).
Proof. unfold qubits. induction q as [|q IH]; intros [|n] H; cbn; auto. f_equal. apply (IH n). lia. Qed.
Lemma qubits_len n : len (qubits n) = n. Proof. apply repeat_length. Qed.
Lemma ins_qu q l : l = qubits (len l) -> q <= len l -> ins q Qb l = qubits (S (len l)).
Proof. intros E H. rewrite E at 1. now apply ins_qubits. Qed.
Lemma pull_left q l b r ls : q <= len l -> pull q ((l, b, r) :: ls) = do o <- pull q ls; Ok ([(ins q Qb l, b, r)] ++ fst o, snd o).
Proof. intro H. cbn [pull]. pose proof H as H'. apply Nat.leb_le in H' as ->. rewrite w_insert_ok by auto. cbn [bind]. reflexivity. Qed.
Lemma pull_right q l b r ls : len l < q -> len l + len (q_dom b) <= q -> q <= len l + len (q_dom b) + len r ->
  pull q ((l, b, r) :: ls) = do o <- pull (q - (len l + len (q_dom b)) + len l + len (q_cod b)) ls; Ok ([(l, b, ins (q - (len l + len (q_dom b))) Qb r)] ++ fst o, snd o).
Proof.
  intros H1 H2 H3. cbn [pull]. apply Nat.leb_gt in H1 as ->. apply Nat.leb_le in H2 as ->. rewrite w_insert_ok by lia. cbn [bind]. reflexivity.
Qed.
Definition step_ok (l : list wire) (b : qbox) (r : list wire) (q : nat) (xs : list qlayer) (q' : nat) : Prop :=
  let n := len l + len (q_dom b) + len r in let n2 := len l + len (q_cod b) + len r in
  (forall ls, pull q ((l, b, r) :: ls) = do o <- pull q' ls; Ok (xs ++ fst o, snd o)) /\ q' <= n2 /\ qch (S n) xs (S n2) /\
  nk xs = nk [(l, b, r)] /\ ne xs = ne [(l, b, r)] /\ 1 <= len xs <= 3 /\ (len (q_dom b) = len (q_cod b) -> q' = q) /\
  forall names ws v, len ws = n -> nk [(l, b, r)] <= len names -> exists names' ws' es,
    visit_layer (names, ws) (l, b, r) = (names', ws', es) /\ len ws' = n2 /\ len names = nk [(l, b, r)] + len names' /\
    follow (names, ins q v ws) xs = (names', ins q' v ws', es).
Lemma step_gate l b r q : cb b -> gate_like b -> l = qubits (len l) -> r = qubits (len r) -> q <= len l + len (q_dom b) + len r -> exists xs q', step_ok l b r q xs q'.
Proof.
  intros C (G1 & G2 & G3 & G4 & G5 & G6) L R Q.
  assert (K : nk [(l, b, r)] = 0) by (unfold nk; cbn; now rewrite G4). assert (E : ne [(l, b, r)] = 0) by (unfold ne; cbn; now rewrite G5).
  destruct (Nat.leb_spec q (len l)) as [H|H].
  - exists [(ins q Qb l, b, r)], q. split; [intro; now apply pull_left|]. split; [lia|]. split; [|split; [|split; [|split; [cbn; lia|split; [auto|]]]]].
    + cbn [qch]. rewrite ins_len. split; [exact C|]. split; [now apply ins_qu|]. split; [exact R|]. split; lia.
    + rewrite K. unfold nk. cbn. now rewrite G4.
    + rewrite E. unfold ne. cbn. now rewrite G5.
    + intros names ws v W _. exists names, ws. rewrite G1. eexists. split; [reflexivity|]. split; [lia|]. split; [lia|]. cbn [follow]. rewrite G1, ins_len. cbn [app]. do 3 f_equal.
      rewrite positions_S, map_map. apply map_ext_in. intros p I. apply G3 in I. rewrite <- (nth_ins (l:=ws) (q:=q) p v) by lia. rewrite shf_S by lia. reflexivity.
  - destruct (Nat.leb_spec (len l + len (q_dom b)) q) as [H2|H2].
    + exists [(l, b, ins (q - (len l + len (q_dom b))) Qb r)], q. split; [|split; [lia|split; [|split; [|split; [|split; [cbn; lia|split; [auto|]]]]]]].
      * intro ls. rewrite pull_right by lia. now replace (q - (len l + len (q_dom b)) + len l + len (q_cod b)) with q by lia.
      * cbn [qch]. rewrite ins_len. split; [exact C|]. split; [exact L|]. split; [apply ins_qu; auto; lia|]. split; lia.
      * rewrite K. unfold nk. cbn. now rewrite G4.
      * rewrite E. unfold ne. cbn. now rewrite G5.
      * intros names ws v W _. exists names, ws. rewrite G1. eexists. split; [reflexivity|]. split; [lia|]. split; [lia|]. cbn [follow]. rewrite G1. cbn [app]. do 3 f_equal.
        apply map_ext_in. intros p I. apply G3 in I. rewrite <- (nth_ins (l:=ws) (q:=q) p v) by lia. rewrite shf_id by lia. reflexivity.
    + destruct G6 as [G6|(c & d & -> & S)]; [lia|]. destruct (pull_ctl_ok S H H2) as (P1 & P2 & P3 & P4).
      assert (X : exists c' d', pull_ctl (QCtl c d) (len l) q = QCtl c' d') by (unfold pull_ctl; cbn [bump_dists]; eauto). destruct X as (c' & d' & X). set (b' := pull_ctl (QCtl c d) (len l) q) in *.
      assert (C' : cb b') by (split; [rewrite X; cbn [circ_box]; now rewrite <- X|split; rewrite X; discriminate]).
      assert (V : len (q_cod b') = len (q_dom b')) by (rewrite X; reflexivity).
      exists [(l, b', r)], q. split; [|split; [lia|split; [|split; [|split; [|split; [cbn; lia|split; [auto|]]]]]]].
      * intro ls. cbn [pull]. apply Nat.leb_gt in H as ->. apply Nat.leb_gt in H2 as ->. fold b'. rewrite P1, Nat.eqb_refl. reflexivity.
      * cbn [qch]. split; [exact C'|]. split; [exact L|]. split; [exact R|]. rewrite V, P1, G2. split; lia.
      * rewrite K, X. reflexivity.
      * rewrite E, X. reflexivity.
      * intros names ws v W _. exists names, ws. rewrite G1. eexists. split; [reflexivity|]. split; [lia|]. split; [lia|].
        cbn [follow]. assert (VL : visit_layer (names, ins q v ws) (l, b', r) = (names, ins q v ws, [VGate (ctl_base b') (map (fun p => nth p (ins q v ws) 0) (positions b' (len l)))])) by (rewrite X; reflexivity).
        rewrite VL, P2, P4. cbn [app]. do 3 f_equal. rewrite map_map. apply map_ext_in. intros p I. apply G3 in I. apply nth_ins. lia.
Qed.
Lemma cb_ket : cb (QKet false). Proof. repeat split; discriminate. Qed.
Lemma cb_swap : cb gSWAP. Proof. repeat split; discriminate. Qed.
Lemma step_ket l r q : l = qubits (len l) -> r = qubits (len r) -> q <= len l + len r -> exists xs q', step_ok l (QKet false) r q xs q'.
Proof.
  intros L R Q. destruct (Nat.leb_spec q (len l)) as [H|H].
  - exists [(ins q Qb l, QKet false, r)], q. split; [intro; now apply pull_left|]. cbn. rewrite ins_len. split; [lia|].
    split; [split; [exact cb_ket|split; [now apply ins_qu|split; [exact R|split; lia]]]|]. split; [auto|]. split; [auto|]. split; [lia|]. split; [auto|].
    intros names ws v W N. destruct names as [|w names]; [cbn in N; lia|]. exists names, (ins (len l) w ws), []. cbn in *. unfold gl_left. cbn. rewrite ?ins_len. repeat split; auto; try lia.
    do 2 f_equal. apply ins_ins; lia.
  - exists [(l, QKet false, ins (q - len l) Qb r)], (S q). split; [|cbn; rewrite ?ins_len; split; [lia|]].
    + intro ls. rewrite pull_right by (cbn; lia). cbn [q_dom q_cod List.length]. now replace (q - (len l + 0) + len l + 1) with (S q) by lia; replace (q - (len l + 0)) with (q - len l) by lia.
    + split; [split; [exact cb_ket|split; [exact L|split; [apply ins_qu; auto; lia|split; lia]]]|]. split; [auto|]. split; [auto|]. split; [lia|]. split; [discriminate|].
      intros names ws v W N. destruct names as [|w names]; [cbn in N; lia|]. exists names, (ins (len l) w ws), []. cbn in *. unfold gl_left. cbn. rewrite ?ins_len. repeat split; auto; try lia.
      do 2 f_equal. symmetry. apply ins_ins; lia.
Qed.
Lemma step_end b l r q : b = QBra false \/ b = QDisc -> l = qubits (len l) -> r = qubits (len r) -> q <= len l + 1 + len r -> exists xs q', step_ok l b r q xs q'.
Proof.
  intros B L R Q. assert (C : cb b) by (destruct B as [-> | ->]; repeat split; discriminate).
  assert (D1 : q_dom b = [Qb]) by (destruct B as [-> | ->]; auto). assert (D2 : q_cod b = []) by (destruct B as [-> | ->]; auto).
  assert (V : exists f, forall names ws l r, visit_layer (names, ws) (l, b, r) = (names, del (len l) ws, [f (nth (len l) ws 0)])) by (destruct B as [-> | ->]; [exists VPost|exists VDisc]; reflexivity).
  destruct V as (f & V). assert (K : is_ket b = false) by (destruct B as [-> | ->]; auto).
  unfold step_ok. rewrite D1, D2. cbn [List.length]. destruct (Nat.leb_spec q (len l)) as [H|H].
  - exists [(ins q Qb l, b, r)], q. split; [intro; now apply pull_left|]. cbn [qch nk ne filter gl_box]. rewrite ins_len, D1, D2. split; [lia|].
    split; [split; [exact C|split; [now apply ins_qu|split; [exact R|cbn; split; lia]]]|]. split; [unfold nk; cbn; now rewrite K|]. split; [unfold ne; cbn; now destruct (is_end b)|]. split; [cbn; lia|]. split; [discriminate|].
    intros names ws v W N. exists names, (del (len l) ws), [f (nth (len l) ws 0)]. rewrite V. split; [auto|]. split; [rewrite del_len; lia|]. split; [unfold nk; cbn; now rewrite K|].
    cbn [follow]. rewrite V, ins_len. cbn [app]. rewrite del_ins_l by lia. do 3 f_equal. rewrite <- (nth_ins (l:=ws) (q:=q) (len l) v) by lia. now rewrite shf_S.
  - exists [(l, b, ins (q - (len l + 1)) Qb r)], (q - 1). split; [|cbn [qch]; rewrite D1, D2, ?ins_len; split; [lia|]].
    + intro ls. rewrite pull_right by (rewrite ?D1; cbn; lia). rewrite D1, D2. cbn [List.length]. now replace (q - (len l + 1) + len l + 0) with (q - 1) by lia.
    + split; [split; [exact C|split; [exact L|split; [apply ins_qu; auto; lia|cbn; split; lia]]]|]. split; [unfold nk; cbn; now rewrite K|]. split; [unfold ne; cbn; now destruct (is_end b)|]. split; [cbn; lia|]. split; [discriminate|].
      intros names ws v W N. exists names, (del (len l) ws), [f (nth (len l) ws 0)]. rewrite V. split; [auto|]. split; [rewrite del_len; lia|]. split; [unfold nk; cbn; now rewrite K|].
      cbn [follow]. rewrite V. cbn [app]. rewrite del_ins_r by lia. do 3 f_equal. rewrite <- (nth_ins (l:=ws) (q:=q) (len l) v) by lia. now rewrite shf_id.
Qed.
Lemma qubits_snoc n : Qb :: qubits n = qubits (S n). Proof. reflexivity. Qed.
Lemma step_swap l r q : l = qubits (len l) -> r = qubits (len r) -> q <= len l + 2 + len r -> exists xs q', step_ok l gSWAP r q xs q'.
Proof.
  intros L R Q. unfold step_ok. cbn [gSWAP q_dom q_cod List.length]. fold gSWAP. destruct (Nat.leb_spec q (len l)) as [H|H].
  - exists [(ins q Qb l, gSWAP, r)], q. split; [intro; now apply pull_left|]. split; [lia|].
    split; [cbn [qch]; rewrite ins_len; split; [exact cb_swap|split; [now apply ins_qu|split; [exact R|cbn; split; lia]]]|]. split; [reflexivity|]. split; [reflexivity|]. split; [cbn; lia|]. split; [auto|].
    intros names ws v W N. exists names, (swp (len l) ws), []. split; [reflexivity|]. rewrite swp_len. split; [auto|]. split; [auto|].
    change (follow (names, ins q v ws) [(ins q Qb l, gSWAP, r)]) with (names, swp (len (ins q Qb l)) (ins q v ws), @nil visit). rewrite ins_len, swp_ins_l by lia. reflexivity.
  - destruct (Nat.leb_spec (len l + 2) q) as [H2|H2].
    + exists [(l, gSWAP, ins (q - (len l + 2)) Qb r)], q. split; [|split; [lia|]].
      * intro ls. rewrite pull_right by (cbn; lia). cbn [q_dom q_cod gSWAP List.length]. now replace (q - (len l + 2) + len l + 2) with q by lia.
      * split; [cbn [qch]; rewrite ins_len; split; [exact cb_swap|split; [exact L|split; [apply ins_qu; auto; lia|cbn; split; lia]]]|]. split; [reflexivity|]. split; [reflexivity|]. split; [cbn; lia|]. split; [auto|].
        intros names ws v W N. exists names, (swp (len l) ws), []. split; [reflexivity|]. rewrite swp_len. split; [auto|]. split; [auto|].
        change (follow (names, ins q v ws) [(l, gSWAP, ins (q - (len l + 2)) Qb r)]) with (names, swp (len l) (ins q v ws), @nil visit). rewrite swp_ins_r by lia. reflexivity.
    + assert (q = S (len l)) by lia. subst q.
      exists [(l, gSWAP, Qb :: r); (Qb :: l, gSWAP, r); (l, gSWAP, Qb :: r)], (S (len l)). split; [|cbn [nk ne filter gl_box gl_left gSWAP is_ket is_end List.length fst snd]; split; [lia|]].
      * intro ls. cbn [pull]. apply Nat.leb_gt in H as ->. cbn [q_dom gSWAP List.length]. apply Nat.leb_gt in H2 as ->. fold gSWAP. destruct (pull (S (len l)) ls); reflexivity.
      * assert (EL : Qb :: l = qubits (len (Qb :: l))) by (cbn [List.length]; rewrite L at 1; reflexivity). assert (ER : Qb :: r = qubits (len (Qb :: r))) by (cbn [List.length]; rewrite R at 1; reflexivity).
        split; [|split; [auto|split; [auto|split; [cbn; lia|split; [auto|]]]]].
        -- cbn [qch]. cbn [gSWAP q_dom q_cod]. fold gSWAP. repeat match goal with |- _ /\ _ => split end; auto; try exact cb_swap; cbn; lia.
        -- intros names ws v W N. exists names, (swp (len l) ws), []. rewrite swp_len. split; [reflexivity|]. split; [auto|]. split; [auto|].
           match goal with |- ?a = _ => change a with (names, swp (len l) (swp (S (len l)) (swp (len l) (ins (S (len l)) v ws))), @nil visit) end. rewrite swp_mid by lia. reflexivity.
Qed.
Lemma step_any l b r q : cb b -> l = qubits (len l) -> r = qubits (len r) -> q <= len l + len (q_dom b) + len r -> exists xs q', step_ok l b r q xs q'.
Proof.
  intros C L R Q. destruct (box_kinds C) as [-> |[-> |[-> |[-> |G]]]]; cbn in Q.
  - apply step_ket; auto. lia.
  - apply step_end; auto.
  - apply step_end; auto.
  - apply step_swap; auto.
  - now apply step_gate.
Qed.

(** ** all layers *)
Lemma straight_dims b : cb b -> is_ket b = false -> is_end b = false -> len (q_dom b) = len (q_cod b).
Proof. intros C K E. destruct (box_kinds C) as [-> |[-> |[-> |[-> |G]]]]; try discriminate; auto. destruct G as (_ & G & _). auto. Qed.
Lemma pull_ok ls : forall n q n', qch n ls n' -> q <= n -> exists ls' q',
  pull q ls = Ok (ls', q') /\ q' <= n' /\ qch (S n) ls' (S n') /\ nk ls' = nk ls /\ ne ls' = ne ls /\ len ls <= len ls' <= 3 * len ls /\
  (nk ls = 0 -> ne ls = 0 -> q' = q) /\
  forall names ws v, len ws = n -> nk ls <= len names -> exists names' ws' es,
    follow (names, ws) ls = (names', ws', es) /\ len ws' = n' /\ len names = nk ls + len names' /\ follow (names, ins q v ws) ls' = (names', ins q' v ws', es).
Proof.
  induction ls as [|[[l b] r] ls IH]; intros n q n' H Q; cbn [qch] in H.
  - subst n'. exists [], q. cbn. repeat split; auto. intros names ws v W _. exists names, ws, []. repeat split; auto.
  - destruct H as (C & L & R & E & H). rewrite E in Q. destruct (step_any C L R Q) as (xs & q1 & S1 & S2 & S3 & S4 & S5 & S6 & S7 & S8).
    destruct (IH _ q1 _ H S2) as (ls1 & q' & P1 & P2 & P3 & P4 & P5 & P6 & P7 & P8).
    change ((l, b, r) :: ls) with ([(l, b, r)] ++ ls). rewrite !nk_app, !ne_app.
    exists (xs ++ ls1), q'. rewrite !nk_app, !ne_app. cbn [app]. rewrite S1, P1. cbn [bind fst snd]. split; [reflexivity|]. split; [exact P2|]. split; [apply qch_app; eexists; split; [rewrite E; exact S3|exact P3]|].
    split; [lia|]. split; [lia|]. split; [rewrite app_length; cbn [List.length]; lia|]. split.
    + intros K0 E0. rewrite P7, S7; auto; try lia. apply straight_dims; auto.
      * unfold nk in K0. cbn in K0. destruct (is_ket b); cbn in K0; [lia|auto].
      * unfold ne in E0. cbn in E0. destruct (is_end b); cbn in E0; [lia|auto].
    + intros names ws v W N. destruct (S8 names ws v) as (names1 & ws1 & es1 & V1 & V2 & V3 & V4); [lia|lia|].
      destruct (P8 names1 ws1 v) as (names2 & ws2 & es2 & F1 & F2 & F3 & F4); [auto|lia|].
      exists names2, ws2, (es1 ++ es2). cbn [follow]. rewrite V1, F1, follow_app, V4, F4. repeat split; auto. lia.
Qed.
