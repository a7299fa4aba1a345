(** [is_circuital] decides [circuital]. *)
From Coq Require Import QArith.
From Verif Require Import PyBase GDiag QModel QSpec QReadSpec.
Close Scope Q_scope. Set Implicit Arguments. Unset Strict Implicit.
Lemma fold_max l : forall m x, In x (m :: l) -> x <= fold_left Nat.max l m.
Proof. induction l as [|y l IH]; intros m x H; cbn in *; [destruct H as [->|[]]; lia|]. destruct H as [->|[->|H]]; [etransitivity; [|apply IH; now left]; lia|etransitivity; [|apply IH; now left]; lia|apply IH; now right]. Qed.
Lemma fold_min l : forall m x, In x (m :: l) -> fold_left Nat.min l m <= x.
Proof. induction l as [|y l IH]; intros m x H; cbn in *; [destruct H as [->|[]]; lia|]. destruct H as [->|[->|H]]; [etransitivity; [apply IH; now left|]; lia|etransitivity; [apply IH; now left|]; lia|apply IH; now right]. Qed.
Lemma fold_max_in l : forall m, In (fold_left Nat.max l m) (m :: l).
Proof. induction l as [|y l IH]; intro m; cbn; [auto|]. destruct (IH (Nat.max m y)) as [H|H]; [|auto]. cbn in H. rewrite <- H. destruct (Nat.max_spec m y) as [[_ ->]|[_ ->]]; auto. Qed.
Lemma fold_min_in l : forall m, In (fold_left Nat.min l m) (m :: l).
Proof. induction l as [|y l IH]; intro m; cbn; [auto|]. destruct (IH (Nat.min m y)) as [H|H]; [|auto]. cbn in H. rewrite <- H. destruct (Nat.min_spec m y) as [[_ ->]|[_ ->]]; auto. Qed.
Lemma enum_in A (l : list A) : forall s i x, In (i, x) (enumerate s l) <-> s <= i /\ nth_error l (i - s) = Some x.
Proof.
  induction l as [|y l IH]; intros s i x; cbn; [split; [contradiction|intros [_ H]; destruct (i - s); discriminate]|]. rewrite IH. split.
  - intros [[= -> ->]|[H1 H2]]; [rewrite Nat.sub_diag; auto|]. split; [lia|]. replace (i - s) with (S (i - S s)) by lia. exact H2.
  - intros [H1 H2]. destruct (i - s) as [|n] eqn:E; cbn in H2; [left; injection H2 as ->; f_equal; lia|]. right. split; [lia|]. replace (i - S s) with n by lia. exact H2.
Qed.
Definition ket_layer (x : glayer wire qbox) : bool := is_ket (gl_box x).
Lemma kets_prefix (ls : list (glayer wire qbox)) : forallb ket_layer (firstn (List.length (filter ket_layer ls)) ls) = true -> Forall (fun x => ket_layer x = false) (skipn (List.length (filter ket_layer ls)) ls).
Proof.
  intro H. set (n := List.length (filter ket_layer ls)) in *. assert (L : n <= List.length ls) by (unfold n; clear; induction ls; cbn; auto; destruct (ket_layer a); cbn; lia).
  assert (E : filter ket_layer (firstn n ls) = firstn n ls). { rewrite forallb_forall in H. clear -H. induction (firstn n ls) as [|x l IH]; auto. cbn. rewrite H by now left. f_equal. apply IH. intros; apply H; now right. }
  assert (N : n = List.length (filter ket_layer (firstn n ls)) + List.length (filter ket_layer (skipn n ls))) by (rewrite <- app_length, <- filter_app, firstn_skipn; reflexivity).
  rewrite E, firstn_length_le in N by auto. assert (Z : List.length (filter ket_layer (skipn n ls)) = 0) by lia. apply Forall_forall. intros x Hx. destruct (ket_layer x) eqn:Q; auto. exfalso.
  assert (In x (filter ket_layer (skipn n ls))) by (apply filter_In; auto). destruct (filter ket_layer (skipn n ls)); [contradiction|discriminate].
Qed.
Definition ends_idx (rest : list (glayer wire qbox)) : list nat := map fst (filter (fun p => match gl_box (snd p) with QDisc | QBra _ => true | _ => false end) (enumerate 0 rest)).
Lemma ends_idx_in rest i : In i (ends_idx rest) <-> exists x, nth_error rest i = Some x /\ is_end (gl_box x) = true.
Proof.
  unfold ends_idx. rewrite in_map_iff. split.
  - intros ([j x] & <- & H). apply filter_In in H. destruct H as [H1 H2]. apply enum_in in H1. rewrite Nat.sub_0_r in H1. exists x. cbn in *. split; [tauto|exact H2].
  - intros (x & H1 & H2). exists (i, x). split; auto. apply filter_In. split; [apply enum_in; rewrite Nat.sub_0_r; split; [lia|auto]|exact H2].
Qed.
Lemma middle_ok rest : (match ends_idx rest with [] => true | m :: ms => forallb (fun p => match gl_box (snd p) with QDisc | QBra _ | QMeas => true | _ => negb ((fold_left Nat.min ms m <? fst p) && (fst p <? fold_left Nat.max ms m)) end) (enumerate 0 rest) end) = true <->
  forall i j k x z y, i < j -> j < k -> nth_error rest i = Some x -> nth_error rest j = Some z -> nth_error rest k = Some y -> is_end (gl_box x) = true -> is_end (gl_box y) = true -> is_consumer (gl_box z) = true.
Proof.
  destruct (ends_idx rest) as [|m ms] eqn:E.
  - split; auto. intros _ i j k x z y _ _ Hx _ _ Ex _. exfalso. assert (In i (ends_idx rest)) by (apply ends_idx_in; eauto). rewrite E in H. contradiction.
  - rewrite forallb_forall. split.
    + intros H i j k x z y H1 H2 Hx Hz Hy Ex Ey. assert (Hi : In i (m :: ms)) by (rewrite <- E; apply ends_idx_in; eauto). assert (Hk : In k (m :: ms)) by (rewrite <- E; apply ends_idx_in; eauto).
      specialize (H (j, z)). cbn [fst snd] in H. assert (Hj : In (j, z) (enumerate 0 rest)) by (apply enum_in; rewrite Nat.sub_0_r; split; [lia|auto]). specialize (H Hj).
      assert (B : (fold_left Nat.min ms m <? j) && (j <? fold_left Nat.max ms m) = true). { apply andb_true_iff. split; apply Nat.ltb_lt; [apply fold_min in Hi; lia|apply fold_max in Hk; lia]. }
      rewrite B in H. destruct (gl_box z); try discriminate; reflexivity.
    + intros H [j z] Hj. apply enum_in in Hj. rewrite Nat.sub_0_r in Hj. destruct Hj as [_ Hj]. cbn [fst snd].
      assert (H1 := fold_min_in ms m). assert (H2 := fold_max_in ms m). rewrite <- E in H1, H2. apply ends_idx_in in H1, H2. destruct H1 as (x & X1 & X2), H2 as (y & Y1 & Y2).
      destruct ((fold_left Nat.min ms m <? j) && (j <? fold_left Nat.max ms m)) eqn:B; [|destruct (gl_box z); reflexivity]. apply andb_true_iff in B. destruct B as [B1 B2]. apply Nat.ltb_lt in B1, B2.
      specialize (H _ _ _ x z y B1 B2 X1 Hj Y1 X2 Y2). destruct (gl_box z); try discriminate; reflexivity.
Qed.
Lemma is_circuital_ok d : is_circuital d = true <-> circuital d.
Proof.
  unfold is_circuital, circuital. destruct (gdom d) as [|w ws]; [|split; [discriminate|intros [[=] _]]].
  cbv zeta. change (filter (fun x => is_ket (gl_box x)) (glayers d)) with (filter ket_layer (glayers d)). match goal with |- context [firstn ?k _] => change k with (List.length (filter ket_layer (glayers d))) end. set (n := List.length (filter ket_layer (glayers d))).
  set (rest := skipn n (glayers d)).
  assert (M : (let rest0 := enumerate 0 rest in let midx := map fst (filter (fun p => match gl_box (snd p) with QDisc | QBra _ => true | _ => false end) rest0) in
     match midx with [] => true | m :: ms => let mmax := fold_left Nat.max ms m in let mmin := fold_left Nat.min ms m in
          forallb (fun p => match gl_box (snd p) with QDisc | QBra _ | QMeas => true | _ => negb ((mmin <? fst p) && (fst p <? mmax)) end) rest0 end) = true <->
     forall i j k x z y, i < j -> j < k -> nth_error rest i = Some x -> nth_error rest j = Some z -> nth_error rest k = Some y -> is_end (gl_box x) = true -> is_end (gl_box y) = true -> is_consumer (gl_box z) = true) by apply middle_ok.
  split.
  - intro H. split; auto. exists (firstn n (glayers d)), rest. split; [symmetry; apply firstn_skipn|].
    destruct (forallb (fun x => is_ket (gl_box x)) (firstn n (glayers d))) eqn:K; [|discriminate]. cbn [negb] in H. destruct (forallb (fun x => match gl_right x with [] => true | _ => false end) (firstn n (glayers d))) eqn:R; [|discriminate]. cbn [negb] in H.
    split; [|split].
    + rewrite forallb_forall in K, R. apply Forall_forall. intros x Hx. split; [now apply K|]. specialize (R x Hx). destruct (gl_right x); [auto|discriminate].
    + apply (kets_prefix K).
    + apply M. exact H.
  - intros (_ & ks & r & E & K & R & I).
    assert (N : n = List.length ks).
    { unfold n. rewrite E, filter_app, app_length. assert (A : filter ket_layer ks = ks). { clear -K. induction K as [|x l [Hx _] F IH]; auto. cbn. unfold ket_layer at 1. rewrite Hx. now f_equal. }
      assert (B : filter ket_layer r = []). { clear -R. induction R as [|x l Hx F IH]; auto. cbn. unfold ket_layer at 1. now rewrite Hx. }
      rewrite A, B. cbn. lia. }
    assert (E1 : firstn n (glayers d) = ks) by (rewrite E, N, firstn_app, firstn_all, Nat.sub_diag; cbn; now rewrite app_nil_r). assert (E2 : rest = r) by (unfold rest; rewrite E, N, skipn_app, skipn_all, Nat.sub_diag; reflexivity).
    rewrite E1. replace (forallb (fun x => is_ket (gl_box x)) ks) with true; [|symmetry; apply forallb_forall; intros x Hx; rewrite Forall_forall in K; now apply K].
    replace (forallb (fun x => match gl_right x with [] => true | _ => false end) ks) with true; [|symmetry; apply forallb_forall; intros x Hx; rewrite Forall_forall in K; destruct (K x Hx) as [_ ->]; reflexivity].
    cbn [negb]. apply M. rewrite E2. exact I.
Qed.
Lemma readoff_rejects d : ~ circuital d -> readoff d = Err AssertionError.
Proof. intro H. unfold readoff. destruct (is_circuital d) eqn:E; [exfalso; apply H; now apply is_circuital_ok|reflexivity]. Qed.
