(** Proofs about PlModel. *)
From Coq Require Import QArith.
From Verif Require Import PyBase PyFacts DiagModel GDiag GDiagSpec GDiagFacts QModel QSpec QFacts QPlace QApply QRead PlModel PlSpec.
Close Scope Q_scope. Close Scope string_scope.
Set Implicit Arguments. Unset Strict Implicit.

(** ** decidable equalities *)
Lemma param_eqb_refl p : param_eqb p p = true.
Proof. destruct p; cbn; rewrite ?String.eqb_refl, ?Z.eqb_refl, ?(proj2 (Qeq_bool_iff _ _)); auto; apply Qeq_refl. Qed.
Lemma nats_eqb_refl l : nats_eqb l l = true. Proof. induction l; cbn; rewrite ?Nat.eqb_refl; auto. Qed.
Lemma gate_eqb_refl g : gate_eqb g g = true.
Proof.
  unfold gate_eqb. rewrite String.eqb_refl, nats_eqb_refl, Bool.eqb_reflx. replace (phase_eqb _ _) with true; [|destruct (g_phase g); cbn; rewrite ?param_eqb_refl, ?Bool.eqb_reflx; auto; symmetry; apply Qeq_bool_iff, Qeq_refl].
  destruct (g_control g), (g_target g); cbn; rewrite ?nats_eqb_refl, ?Nat.eqb_refl; reflexivity.
Qed.
Definition is_sc (g : gate) : bool := String.eqb (g_type g) "Scalar" && match g_phase g with PhScalar _ _ => true | _ => false end.
Lemma gate_eqb_sc g h : gate_eqb g h = true -> is_sc h = true -> is_sc g = true.
Proof.
  unfold gate_eqb, is_sc. rewrite !andb_true_iff. intros (((((E1 & _) & E2) & _) & _) & _) (H1 & H2). apply String.eqb_eq in E1. rewrite E1. split; auto. destruct (g_phase g), (g_phase h); cbn in *; auto; discriminate.
Qed.
Lemma remove_gate_here g pre gs : is_sc g = true -> Forall (fun h => is_sc h = false) pre -> remove_gate g (pre ++ g :: gs) = pre ++ gs.
Proof.
  intros S H. induction H as [|h pre Hh _ IH]; cbn; [now rewrite gate_eqb_refl|]. destruct (gate_eqb h g) eqn:E; [|now rewrite IH]. apply gate_eqb_sc in E; auto. congruence.
Qed.
Fixpoint gno_adj (gs : list gate) : Prop := match gs with [] => True | g :: gs' => match gs' with [] => True | g' :: _ => is_sc g && is_sc g' = false end /\ gno_adj gs' end.
Definition sc_val {K} (scal : bool -> Q -> K) (kone : K) (g : gate) : K := match g_phase g with PhScalar r v => scal r v | _ => kone end.
Lemma strip_ok K (kmul : K -> K -> K) (scal : bool -> Q -> K) kone fuel : forall pre gs sc, Forall (fun h => is_sc h = false) pre -> gno_adj gs -> List.length gs < fuel ->
  strip_scalars kmul scal fuel (List.length pre) (pre ++ gs) sc = (fold_left (fun s g => kmul s (sc_val scal kone g)) (filter is_sc gs) sc, pre ++ filter (fun g => negb (is_sc g)) gs).
Proof.
  induction fuel as [|f IH]; intros pre gs sc HP HA HF; [lia|]. cbn [strip_scalars]. destruct gs as [|g gs].
  - rewrite app_nil_r. rewrite (proj2 (nth_error_None _ _)) by lia. cbn. now rewrite app_nil_r.
  - rewrite nth_error_app2, Nat.sub_diag by lia. cbn [nth_error]. destruct (is_sc g) eqn:E.
    + rewrite remove_gate_here by auto. unfold is_sc in E. destruct (String.eqb (g_type g) "Scalar") eqn:E1; [|discriminate]. destruct (g_phase g) as [|p|r v] eqn:E2; try discriminate.
      assert (Eg : is_sc g = true) by (unfold is_sc; rewrite E1, E2; reflexivity). cbn [filter]. rewrite Eg. cbn [negb fold_left]. replace (sc_val scal kone g) with (scal r v) by (unfold sc_val; now rewrite E2).
      destruct gs as [|g2 gs].
      * cbn [filter fold_left]. rewrite app_nil_r. destruct f; cbn [strip_scalars]; [reflexivity|]. rewrite (proj2 (nth_error_None _ _)) by lia. reflexivity.
      * destruct HA as (A1 & A2). rewrite Eg in A1. cbn [andb] in A1. replace (S (List.length pre)) with (List.length (pre ++ [g2])) by (rewrite app_length; cbn; lia).
        change (pre ++ g2 :: gs) with (pre ++ [g2] ++ gs). rewrite app_assoc, IH; [cbn [filter]; rewrite A1; cbn [negb]; rewrite <- app_assoc; reflexivity| |apply A2|cbn in HF; lia].
        apply Forall_app. auto.
    + replace (match (g_type g =? "Scalar")%string, g_phase g with true, PhScalar r v => strip_scalars kmul scal f (S (List.length pre)) (remove_gate g (pre ++ g :: gs)) (kmul sc (scal r v)) | _, _ => strip_scalars kmul scal f (S (List.length pre)) (pre ++ g :: gs) sc end)
        with (strip_scalars kmul scal f (S (List.length pre)) (pre ++ g :: gs) sc) by (unfold is_sc in E; destruct (String.eqb _ _), (g_phase g); auto; discriminate).
      replace (S (List.length pre)) with (List.length (pre ++ [g])) by (rewrite app_length; cbn; lia). change (pre ++ g :: gs) with (pre ++ [g] ++ gs). rewrite app_assoc, IH; [| |apply HA|cbn in HF; lia].
      * cbn [filter]. rewrite E. cbn [negb]. now rewrite <- app_assoc.
      * apply Forall_app. auto.
Qed.

(** ** bit strings *)
Lemma all_bits_len n : forall y, In y (all_bits n) -> List.length y = n.
Proof. induction n as [|n IH]; cbn; [intros y [<-|[]]; reflexivity|]. intros y H. apply in_app_or in H. destruct H as [H|H]; apply in_map_iff in H; destruct H as (z & <- & Hz); cbn; auto. Qed.
Lemma all_bits_count n : List.length (all_bits n) = 2 ^ n.
Proof. induction n as [|n IH]; cbn; auto. rewrite app_length, !map_length, IH. lia. Qed.
Lemma to_int_acc y : forall a, fold_left (fun (a : nat) (b : bool) => 2 * a + (if b then 1 else 0)) y a = a * 2 ^ List.length y + to_int y.
Proof.
  unfold to_int. induction y as [|b y IH]; intro a; cbn [fold_left List.length Nat.pow]; [lia|]. rewrite IH, (IH (2 * 0 + _)). destruct b; lia.
Qed.
Lemma to_int_cons b y : to_int (b :: y) = (if b then 2 ^ List.length y else 0) + to_int y.
Proof. unfold to_int at 1. cbn [fold_left]. rewrite to_int_acc. destruct b; lia. Qed.
Lemma nth_all_bits T (f : list bool -> T) dflt n : forall y, List.length y = n -> nth (to_int y) (map f (all_bits n)) dflt = f y /\ to_int y < 2 ^ n.
Proof.
  revert f. induction n as [|n IH]; intros f y L.
  - destruct y; [|discriminate]. cbn. split; [reflexivity|lia].
  - destruct y as [|b y]; [discriminate|]. cbn in L. injection L as L. rewrite to_int_cons, L. cbn [all_bits Nat.pow]. rewrite map_app, !map_map. destruct (IH (fun z => f (b :: z)) y L) as (E & B).
    destruct b.
    + rewrite app_nth2 by (rewrite map_length, all_bits_count; lia). rewrite map_length, all_bits_count. replace (2 ^ n + to_int y - 2 ^ n) with (to_int y) by lia. split; [exact E|lia].
    + rewrite app_nth1 by (rewrite map_length, all_bits_count; lia). split; [exact E|lia].
Qed.
(** position of a qubit in a list *)
Fixpoint pos (q : nat) (l : list nat) : option nat := match l with [] => None | x :: l' => if q =? x then Some 0 else option_map S (pos q l') end.
Lemma pos_none q l : pos q l = None <-> ~ In q l.
Proof. induction l as [|x l IH]; cbn; [tauto|]. destruct (Nat.eqb_spec q x); [subst; split; [discriminate|tauto]|]. destruct (pos q l); cbn; split; try discriminate; intuition congruence. Qed.
Lemma pos_app q a b : pos q (a ++ b) = match pos q a with Some j => Some j | None => option_map (fun j => List.length a + j) (pos q b) end.
Proof. induction a as [|x a IH]; cbn; [destruct (pos q b); reflexivity|]. destruct (q =? x); [reflexivity|]. rewrite IH. destruct (pos q a); [reflexivity|]. destruct (pos q b); reflexivity. Qed.
Lemma pos_lt q l j : pos q l = Some j -> j < List.length l.
Proof. revert j. induction l as [|x l IH]; cbn; [discriminate|]. intros j. destruct (q =? x); [intros [= <-]; lia|]. destruct (pos q l); [|discriminate]. intros [= <-]. specialize (IH n eq_refl). lia. Qed.
Lemma set_bit_len i b x : i < List.length x -> List.length (set_bit i b x) = List.length x.
Proof. intro H. unfold set_bit. rewrite app_length, firstn_length. cbn [List.length]. rewrite skipn_length. lia. Qed.
Lemma nth_set_bit i b x q : i < List.length x -> nth q (set_bit i b x) false = if q =? i then b else nth q x false.
Proof.
  intro H. unfold set_bit. assert (L : List.length (firstn i x) = i) by (rewrite firstn_length; lia). destruct (Nat.eqb_spec q i) as [->|N].
  - rewrite app_nth2 by lia. rewrite L, Nat.sub_diag. reflexivity.
  - destruct (Nat.lt_ge_cases q i).
    + rewrite app_nth1 by lia. rewrite <- (firstn_skipn i x) at 2. rewrite app_nth1 by lia. reflexivity.
    + rewrite app_nth2 by lia. rewrite L. destruct (q - i) as [|k] eqn:E; [lia|]. cbn [nth]. rewrite <- (firstn_skipn (S i) x) at 2. rewrite app_nth2 by (rewrite firstn_length; lia).
      rewrite firstn_length. f_equal. lia.
Qed.
Lemma place_bits_gen perm open : forall k fixed, NoDup open -> (forall q, In q open -> q < List.length fixed) ->
  List.length (fold_left (fun new io => set_bit (snd io) (nth (fst io) perm false) new) (enumerate k open) fixed) = List.length fixed /\
  forall q, nth q (fold_left (fun new io => set_bit (snd io) (nth (fst io) perm false) new) (enumerate k open) fixed) false =
    match pos q open with Some j => nth (k + j) perm false | None => nth q fixed false end.
Proof.
  induction open as [|o open IH]; intros k fixed ND R; cbn [enumerate fold_left pos]; [auto|]. inversion ND as [|? ? N1 N2]; subst. cbn [fst snd].
  assert (Ro : o < List.length fixed) by (apply R; now left). destruct (IH (S k) (set_bit o (nth k perm false) fixed) N2) as (L & H); [intros q Hq; rewrite set_bit_len by auto; apply R; now right|].
  rewrite L, set_bit_len by auto. split; auto. intro q. rewrite H. destruct (Nat.eqb_spec q o) as [->|N].
  - rewrite (proj2 (pos_none o open)) by auto. rewrite nth_set_bit, Nat.eqb_refl by auto. f_equal. lia.
  - destruct (pos q open) as [j|]; cbn [option_map]; [f_equal; lia|]. rewrite nth_set_bit by auto. destruct (Nat.eqb_spec q o); [congruence|reflexivity].
Qed.
Lemma place_bits_len perm open fixed : NoDup open -> (forall q, In q open -> q < List.length fixed) -> List.length (place_bits open perm fixed) = List.length fixed.
Proof. intros. now apply place_bits_gen. Qed.
Lemma place_bits_nth perm open fixed q : NoDup open -> (forall q, In q open -> q < List.length fixed) ->
  nth q (place_bits open perm fixed) false = match pos q open with Some j => nth j perm false | None => nth q fixed false end.
Proof. intros H1 H2. destruct (@place_bits_gen perm open 0 fixed H1 H2) as (_ & H). apply H. Qed.

(** ** post-selections *)
Lemma nassoc_app V k (l : list (nat * V)) m : nassoc k (l ++ m) = match nassoc k l with Some v => Some v | None => nassoc k m end.
Proof. induction l as [|[k' v] l IH]; cbn; auto. destruct (k =? k'); auto. Qed.
Lemma fixed_len n post : List.length (fixed_bits n post) = n. Proof. unfold fixed_bits. now rewrite map_length, seq_length. Qed.
Lemma fixed_nth n post q : q < n -> nth q (fixed_bits n post) false = match nassoc q post with Some b => b | None => false end.
Proof. intro H. unfold fixed_bits. rewrite (nth_indep _ false ((fun i => match nassoc i post with Some b => b | None => false end) 0)) by (rewrite map_length, seq_length; auto). rewrite (map_nth (fun i => match nassoc i post with Some b => b | None => false end)), seq_nth by auto. reflexivity. Qed.
Lemma open_in n post q : In q (open_set n post) <-> q < n /\ nassoc q post = None.
Proof. unfold open_set. rewrite filter_In, in_seq. destruct (nassoc q post); intuition (try discriminate; lia). Qed.
Lemma open_nodup n post : NoDup (open_set n post). Proof. apply NoDup_filter, seq_NoDup. Qed.
Lemma open_snoc n post a q b x : open_set n post = a ++ q :: b -> open_set n (post ++ [(q, x)]) = a ++ b.
Proof.
  intro E. assert (H : open_set n (post ++ [(q, x)]) = filter (fun i => negb (i =? q)) (open_set n post)).
  { unfold open_set. clear E. induction (seq 0 n) as [|i l IH]; cbn; auto. rewrite nassoc_app. destruct (nassoc i post) eqn:Ei; [exact IH|]. cbn [nassoc filter]. destruct (i =? q); cbn [negb]; rewrite IH; reflexivity. }
  rewrite H, E, filter_app. cbn [filter]. rewrite Nat.eqb_refl. cbn [negb]. pose proof (open_nodup n post) as ND. rewrite E in ND. apply NoDup_remove_2 in ND.
  assert (F : forall l, ~ In q l -> filter (fun i => negb (i =? q)) l = l). { induction l as [|i l IH]; cbn; auto. intro Hn. destruct (Nat.eqb_spec i q); [subst; tauto|]. cbn. rewrite IH by tauto. reflexivity. }
  rewrite !F; auto; intro; apply ND, in_or_app; auto.
Qed.
Lemma list_ext (x y : list bool) : List.length x = List.length y -> (forall q, q < List.length x -> nth q x false = nth q y false) -> x = y.
Proof. intros L H. apply (nth_ext _ _ false false L H). Qed.
Lemma place_step n post a q b x bit : open_set n post = a ++ q :: b -> List.length x = List.length (a ++ b) ->
  place_bits (open_set n post) (firstn (List.length a) x ++ bit :: skipn (List.length a) x) (fixed_bits n post) = place_bits (open_set n (post ++ [(q, bit)])) x (fixed_bits n (post ++ [(q, bit)])).
Proof.
  intros E L. assert (R : forall p, forall q, In q (open_set n p) -> q < List.length (fixed_bits n p)) by (intros p q0 H; rewrite fixed_len; apply open_in in H; tauto).
  rewrite app_length in L. apply list_ext; rewrite !place_bits_len, ?fixed_len; auto using open_nodup. intros i Hi. rewrite !place_bits_nth; auto using open_nodup. rewrite !fixed_nth by auto.
  rewrite (@open_snoc n post a q b bit E), E, !pos_app. pose proof (open_nodup n post) as ND. rewrite E in ND. cbn [pos]. rewrite nassoc_app. cbn [nassoc].
  assert (La : List.length (firstn (List.length a) x) = List.length a) by (rewrite firstn_length; lia).
  destruct (pos i a) as [j|] eqn:Ea.
  - apply pos_lt in Ea. rewrite app_nth1 by lia. rewrite <- (firstn_skipn (List.length a) x) at 2. rewrite app_nth1 by lia. reflexivity.
  - destruct (Nat.eqb_spec i q) as [->|Nq].
    + cbn [option_map]. rewrite Nat.add_0_r, app_nth2, La, Nat.sub_diag by lia. cbn [nth]. apply NoDup_remove_2 in ND. rewrite (proj2 (pos_none q b)) by (intro; apply ND, in_or_app; auto). cbn [option_map].
      assert (Hq : In q (open_set n post)) by (rewrite E; apply in_or_app; right; now left). apply open_in in Hq. destruct Hq as (_ & ->). reflexivity.
    + destruct (pos i b) as [j|] eqn:Eb; cbn [option_map].
      * rewrite app_nth2 by lia. rewrite La. replace (List.length a + S j - List.length a) with (S j) by lia. cbn [nth]. rewrite <- (firstn_skipn (List.length a) x) at 2. rewrite app_nth2 by lia. rewrite La. f_equal. lia.
      * destruct (nassoc i post); reflexivity.
Qed.
Lemma place_all n x : List.length x = n -> place_bits (open_set n []) x (fixed_bits n []) = x.
Proof.
  intro L. assert (E : open_set n [] = seq 0 n). { unfold open_set. cbn [nassoc]. induction (seq 0 n); cbn; congruence. }
  assert (R : forall q, In q (open_set n []) -> q < List.length (fixed_bits n [])) by (intros q0 H; rewrite fixed_len; apply open_in in H; tauto).
  apply list_ext; rewrite place_bits_len, ?fixed_len; auto using open_nodup. intros q Hq. rewrite place_bits_nth; auto using open_nodup. rewrite E.
  assert (P : forall m k, k <= q < k + m -> pos q (seq k m) = Some (q - k)). { induction m as [|m IH]; intros k H; cbn; [lia|]. destruct (Nat.eqb_spec q k); [subst; now rewrite Nat.sub_diag|]. rewrite IH by lia. cbn. f_equal. lia. }
  rewrite P by lia. now rewrite Nat.sub_0_r.
Qed.
