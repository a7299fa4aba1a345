(** Lemmas about the text printer: the morphisms of a diagram and the wires alive in each layer (C66). *)
From Coq Require Import Ascii Permutation Sorted Lia.
From Verif Require Import PyBase PyFacts TyModel DiagModel DiagSpec DiagMisc PrintModel PrintSpec PrintFacts.
Close Scope string_scope. Set Implicit Arguments. Unset Strict Implicit.

Notation incr := (StronglySorted lt).
Lemma incr_app_inv (u v : list nat) : incr (u ++ v) -> incr u /\ incr v /\ forall a b, In a u -> In b v -> a < b.
Proof.
  induction u as [|x u IH]; cbn [app]; intros I.
  - split; [constructor|]. split; [exact I | intros a b []].
  - apply StronglySorted_inv in I. destruct I as [I F]. destruct (IH I) as (A & B & C). rewrite Forall_app, !Forall_forall in F. destruct F as [F1 F2].
    split; [constructor; [exact A | now apply Forall_forall]|]. split; [exact B|]. intros a b [<- | Ha] Hb; [now apply F2 | now apply C].
Qed.
Lemma incr_app (u v : list nat) : incr u -> incr v -> (forall a b, In a u -> In b v -> a < b) -> incr (u ++ v).
Proof.
  induction u as [|x u IH]; cbn [app]; intros A B C; [exact B|]. apply StronglySorted_inv in A. destruct A as [A F]. constructor; [apply IH; auto; intros; apply C; [now right | assumption]|].
  rewrite Forall_app. split; [exact F|]. apply Forall_forall. intros b Hb. apply C; [now left | exact Hb].
Qed.
Lemma incr_seq a n : incr (seq a n).
Proof. revert a; induction n as [|n IH]; intros a; cbn; constructor; [apply IH|]. apply Forall_forall. intros x Hx. apply in_seq in Hx. lia. Qed.

Record track_facts (ws : list nat) (ms : list morph) : Prop := {
  tf_in : forall k m, nth_error ms k = Some m -> m_start m < m_end m /\ In (m_start m) ws /\ In (m_end m) ws;
  tf_later : forall i k m m' w, i < k -> nth_error ms i = Some m -> nth_error ms k = Some m' -> ends m w -> w <> m_start m' /\ w <> m_end m';
  tf_between : forall k m w, nth_error ms k = Some m -> In w ws -> m_start m < w < m_end m -> exists i m', i < k /\ nth_error ms i = Some m' /\ ends m' w }.
Lemma tracks_facts ls ws ms : tracks ls ws ms -> incr ws -> track_facts ws ms.
Proof.
  induction 1 as [ws | ll x y rv r ls u a b v ms Lu T IH | ll x y r ls u a b v ms Lu T IH]; intros I.
  - constructor; intros [|k]; discriminate || (intros [|k']; discriminate).
  - destruct (incr_app_inv I) as (Iu & Iv & Iuv). apply StronglySorted_inv in Iv. destruct Iv as [Ib Fa]. apply StronglySorted_inv in Ib. destruct Ib as [Iv Fb]. rewrite Forall_forall in Fa, Fb.
    assert (Hab : a < b) by (apply Fa; now left).
    assert (I' : incr (u ++ v)) by (apply incr_app; auto; intros p q Hp Hq; apply Iuv; [assumption | now right; right]).
    destruct (IH I') as [F1 F2 F3].
    assert (Sub : forall w, In w (u ++ v) -> w <> a /\ w <> b /\ In w (u ++ a :: b :: v)).
    { intros w Hw. rewrite in_app_iff in *. cbn [In]. destruct Hw as [Hw | Hw].
      - assert (w < a) by (apply Iuv; [exact Hw | now left]). assert (w < b) by (apply Iuv; [exact Hw | now right; left]). repeat split; try lia. tauto.
      - assert (a < w) by (apply Fa; now right). assert (b < w) by (apply Fb; exact Hw). repeat split; try lia. tauto. }
    constructor.
    + intros [|k] m; cbn.
      * intros [= <-]. cbn. split; [exact Hab|]. rewrite !in_app_iff. cbn. tauto.
      * intros N. destruct (F1 k m N) as (L & A & B). split; [exact L|]. split; now apply Sub.
    + intros [|i] [|k] m m' w L; cbn; try lia.
      * intros [= <-] N [_ E]. cbn in E. destruct (F1 k m' N) as (_ & A & B). apply Sub in A, B. destruct A as (? & ? & _), B as (? & ? & _). destruct E as [-> | ->]; split; congruence.
      * intros N N'. apply (F2 i k m m' w); auto. lia.
    + intros [|k] m w; cbn.
      * intros [= <-]. cbn. intros Hw Lw. exfalso. rewrite in_app_iff in Hw. cbn in Hw. destruct Hw as [Hw | [<- | [<- | Hw]]]; try lia.
        -- assert (w < a) by (apply Iuv; [exact Hw | now left]). lia.
        -- assert (b < w) by (now apply Fb). lia.
      * intros N Hw Lw. destruct (Nat.eq_dec w a) as [-> | Na]; [exists 0, (M true a b); cbn; repeat split; auto; lia|].
        destruct (Nat.eq_dec w b) as [-> | Nb]; [exists 0, (M true a b); cbn; repeat split; auto; lia|].
        destruct (F3 k m w N) as (i & m' & L & N' & E); [|exact Lw|exists (S i), m'; cbn; repeat split; auto; lia || apply E].
        rewrite in_app_iff in *. cbn in Hw. destruct Hw as [? | [? | [? | ?]]]; auto; congruence.
  - destruct (incr_app_inv I) as (Iu & Iv & Iuv). apply StronglySorted_inv in Iv. destruct Iv as [Ib Fa]. apply StronglySorted_inv in Ib. destruct Ib as [Iv Fb]. rewrite Forall_forall in Fa, Fb.
    assert (Hab : a < b) by (apply Fa; now left).
    destruct (IH I) as [F1 F2 F3]. constructor.
    + intros [|k] m; cbn; [|apply F1]. intros [= <-]. cbn. split; [exact Hab|]. rewrite !in_app_iff. cbn. tauto.
    + intros [|i] [|k] m m' w L; cbn; try lia.
      * intros [= <-] N [E _]. discriminate.
      * intros N N'. apply (F2 i k m m' w); auto. lia.
    + intros [|k] m w; cbn.
      * intros [= <-]. cbn. intros Hw Lw. exfalso. rewrite in_app_iff in Hw. cbn in Hw. destruct Hw as [Hw | [<- | [<- | Hw]]]; try lia.
        -- assert (w < a) by (apply Iuv; [exact Hw | now left]). lia.
        -- assert (b < w) by (now apply Fb). lia.
      * intros N Hw Lw. destruct (F3 k m w N Hw Lw) as (i & m' & L & N' & E). exists (S i), m'. cbn. repeat split; auto; lia || apply E.
Qed.

(** ** Which wires are alive where *)
Section Alive.
  Variables (c : bool) (n : nat) (ms : list morph) (js : list nat) (ls : list (list morph)).
  Hypotheses (Sc : scheduled c ms js ls) (Tf : track_facts (seq 0 n) ms).
  Lemma sched_index m j : In (m, j) (tagged 0 ls) <-> exists k, nth_error ms k = Some m /\ nth_error js k = Some j.
  Proof.
    split; intros H.
    - apply (Permutation_in _ (sc_all Sc)) in H. now apply combine_nth_in.
    - destruct H as (k & A & B). eapply Permutation_in; [symmetry; apply (sc_all Sc)|]. exact (combine_in_nth A B).
  Qed.
  Lemma share_overlap m m' w : m_start m < m_end m -> m_start m' < m_end m' -> (w = m_start m \/ w = m_end m) -> (w = m_start m' \/ w = m_end m') -> overlap m m'.
  Proof. unfold overlap. intros. lia. Qed.
  Lemma used_alive m j w : In (m, j) (tagged 0 ls) -> (w = m_start m \/ w = m_end m) -> alive n ls j w.
  Proof.
    intros H Hw. apply sched_index in H. destruct H as (k & A & B). destruct (tf_in Tf A) as (L & I1 & I2). apply in_seq in I1, I2. split; [destruct Hw; lia|].
    intros m' i H' Li E. apply sched_index in H'. destruct H' as (i' & A' & B'). destruct (Nat.lt_trichotomy i' k) as [Lt | [-> | Gt]].
    - destruct (tf_later Tf Lt A' A E) as [? ?]. destruct Hw; congruence.
    - rewrite B in B'. injection B' as <-. lia.
    - assert (O : overlap m m'). { destruct (tf_in Tf A') as (L' & _). destruct E as [_ E]. exact (share_overlap L L' Hw E). }
      assert (X := sc_order Sc Gt A A' B B' O). lia.
  Qed.
  Lemma between_dead m j w : In (m, j) (tagged 0 ls) -> m_start m < w < m_end m -> ~ alive n ls j w.
  Proof.
    intros H Hw [Ln A0]. apply sched_index in H. destruct H as (k & A & B). destruct (@tf_between _ _ Tf k m w A) as (i & m' & Li & A' & E); [apply in_seq; lia | exact Hw|].
    destruct (nth_error js i) as [j'|] eqn:Ej; [|apply nth_error_None in Ej; rewrite (sc_len Sc) in Ej; assert (nth_error ms i <> None) by congruence; apply nth_error_Some in H; lia].
    apply (A0 m' j'); [apply sched_index; eauto | | exact E]. apply (sc_order Sc Li A' A Ej B). destruct (tf_in Tf A') as (L' & _). destruct E as [_ E]. unfold overlap. destruct E; lia.
  Qed.
  Lemma sched_lt m j : In (m, j) (tagged 0 ls) -> m_start m < m_end m.
  Proof. intros H. apply sched_index in H. destruct H as (k & A & B). now destruct (tf_in Tf A). Qed.
End Alive.

(** ** Processing *)
Lemma nth_error_mid A (u : list A) x v : nth_error (u ++ x :: v) (List.length u) = Some x.
Proof. rewrite nth_error_app2 by lia. now rewrite Nat.sub_diag. Qed.
Lemma process_ok c ls : forall t t', chain t ls t' -> (forall l b r, In (l, b, r) ls -> (exists x y rv, b = Cup x y rv) \/ (exists x y, b = Swap x y)) ->
  forall scan L, List.length scan = List.length t -> exists ms, tracks ls scan ms /\ process c (List.combine (map l_box ls) (map (fun x => List.length (l_left x)) ls)) scan L = Ok (fold_left (fun L m => place c m L) ms L).
Proof.
  induction ls as [|[[l b] r] ls IH]; intros t t' Ch K scan L Ls.
  - exists []. split; [constructor | reflexivity].
  - cbn [chain l_dom l_cod] in Ch. destruct Ch as [-> Ch]. cbn [map l_box l_left List.combine process].
    assert (K' : forall l b r, In (l, b, r) ls -> (exists x y rv, b = Cup x y rv) \/ (exists x y, b = Swap x y)) by (intros; eapply K; right; eassumption).
    set (u := firstn (List.length l) scan). assert (Es : exists a b' v, scan = u ++ a :: b' :: v /\ List.length u = List.length l /\ List.length v = List.length r).
    { assert (Lb : List.length (b_dom b) = 2) by (destruct (K l b r (or_introl eq_refl)) as [(x & y & rv & ->) | (x & y & ->)]; reflexivity).
      rewrite !app_length, Lb in Ls. assert (Lu : List.length u = List.length l) by (unfold u; rewrite firstn_length; lia).
      assert (Lk : List.length (skipn (List.length l) scan) = 2 + List.length r) by (rewrite skipn_length; lia). assert (E := firstn_skipn (List.length l) scan). fold u in E.
      destruct (skipn (List.length l) scan) as [|a [|b' v]]; cbn in Lk; try lia. exists a, b', v. repeat split; auto; lia. }
    destruct Es as (a & b' & v & Es & Lu & Lv). clearbody u. subst scan.
    assert (N1 : nth_error (u ++ a :: b' :: v) (List.length l) = Some a) by (rewrite <- Lu; apply nth_error_mid).
    assert (N2 : nth_error (u ++ a :: b' :: v) (List.length l + 2 - 1) = Some b').
    { replace (List.length l + 2 - 1) with (List.length (u ++ [a])) by (rewrite app_length; cbn; lia). change (u ++ a :: b' :: v) with (u ++ [a] ++ b' :: v). rewrite app_assoc. apply nth_error_mid. }
    destruct (K l b r (or_introl eq_refl)) as [(x & y & rv & ->) | (x & y & ->)]; change (List.length (b_dom _)) with 2; rewrite N1, N2.
    + assert (E1 : skipn (List.length l + 2) (u ++ a :: b' :: v) = v).
      { rewrite <- Lu. rewrite skipn_app, skipn_all2 by lia. replace (List.length u + 2 - List.length u) with 2 by lia. reflexivity. }
      cbv zeta iota. rewrite E1. destruct (IH _ _ Ch K' (u ++ v) (place c (M true a b') L)) as (ms & T & E).
      { rewrite !app_length. cbn. lia. }
      exists (M true a b' :: ms). split; [now constructor | exact E].
    + destruct (IH _ _ Ch K' (u ++ a :: b' :: v) (place c (M false a b') L)) as (ms & T & E).
      { rewrite !app_length. cbn. lia. }
      exists (M false a b' :: ms). split; [now constructor | exact E].
Qed.
(** the words *)
Lemma words_split (ws rest : list layer) : (forall l b r, In (l, b, r) ws -> r = [] /\ exists n c z, b = Word n c z) -> (forall l b r, In (l, b, r) rest -> (exists x y rv, b = Cup x y rv) \/ (exists x y, b = Swap x y)) ->
  List.length (word_part (ws ++ rest)) = List.length ws /\ word_part (ws ++ rest) = word_part ws.
Proof.
  intros A B. induction ws as [|[[l b] r] ws IH]; cbn [app].
  - destruct rest as [|[[l b] r] rest]; [split; reflexivity|]. destruct (B l b r (or_introl eq_refl)) as [(x & y & rv & ->) | (x & y & ->)]; split; reflexivity.
  - destruct (A l b r (or_introl eq_refl)) as (-> & nm & cd & z & ->). cbn [word_part List.length]. destruct IH as [E1 E2]; [intros; apply A with (l := l0); now right|]. split; congruence.
Qed.
Lemma words_chain (ws : list layer) : (forall l b r, In (l, b, r) ws -> r = [] /\ exists n c z, b = Word n c z) -> forall t (rest : list layer) t', chain t (ws ++ rest) t' -> chain (t ++ flat_map snd (word_part ws)) rest t'.
Proof.
  induction ws as [|[[l b] r] ws IH]; intros A t rest t' Ch; cbn [app] in *.
  - cbn. now rewrite app_nil_r.
  - destruct (A l b r (or_introl eq_refl)) as (-> & nm & cd & z & ->). cbn [chain l_dom l_cod b_dom b_cod b_end] in Ch. destruct Ch as [-> Ch]. apply IH in Ch; [|intros l1 b1 r1 H1; apply (A l1 b1 r1); now right].
    cbn [word_part flat_map snd]. cbn [b_dom b_end app] in *. rewrite !app_nil_r in *. unfold b_cod in Ch. cbn [b_end] in Ch. now rewrite app_assoc in *.
Qed.
Lemma process_words c (ws : list layer) : (forall l b r, In (l, b, r) ws -> r = [] /\ exists n c z, b = Word n c z) -> forall (rest : list layer) scan L,
  process c (List.combine (map l_box (ws ++ rest)) (map (fun x => List.length (l_left x)) (ws ++ rest))) scan L = process c (List.combine (map l_box rest) (map (fun x => List.length (l_left x)) rest)) scan L.
Proof.
  induction ws as [|[[l b] r] ws IH]; intros A rest scan L; [reflexivity|]. destruct (A l b r (or_introl eq_refl)) as (-> & nm & cd & z & ->).
  cbn [app map l_box l_left List.combine process]. apply IH. intros l1 b1 r1 H1; apply (A l1 b1 r1); now right.
Qed.
Lemma process_diagram c d : wf d -> is_pregroup d = true ->
  exists ms, tracks (after_words d) (seq 0 (n_wires d)) ms /\ process c (List.combine (boxes d) (offsets d)) (seq 0 (n_wires d)) [[]] = Ok (places c ms).
Proof.
  intros [Ch _] P. apply is_pregroup_spec in P. destruct P as (D & ws & rest & E & A & B). unfold boxes, offsets, after_words, n_wires. rewrite E in Ch |- *. setoid_rewrite process_words; [|exact A].
  destruct (words_split A B) as [L1 L2]. rewrite L1. rewrite skipn_app, skipn_all, Nat.sub_diag. cbn [skipn app]. rewrite L2. rewrite D in Ch. apply words_chain in Ch; [|exact A]. cbn [app] in Ch.
  destruct (@process_ok c rest _ _ Ch B (seq 0 (List.length (flat_map snd (word_part ws)))) [[]]) as (ms & T & E2); [now rewrite seq_length|]. exists ms. split; assumption.
Qed.
