(** Proofs about loss functions. *)
From Coq Require Import Reals Lra Lia.
From Verif Require Import PyBase LossModel LossSpec.
Close Scope string_scope. Set Implicit Arguments. Unset Strict Implicit.
Open Scope R_scope.

Lemma Sum_ext n f g : (forall i, (i < n)%nat -> f i = g i) -> Sum n f = Sum n g.
Proof. induction n as [|n IH]; intro H; cbn [Sum]; [reflexivity|]. rewrite IH, H by (try intros; try apply H; lia). reflexivity. Qed.
Lemma Sum_shift n f : Sum (S n) f = f 0%nat + Sum n (fun i => f (S i)).
Proof. induction n as [|n IH]; [cbn; lra|]. change (Sum (S (S n)) f) with (Sum (S n) f + f (S n)). rewrite IH. cbn [Sum]. lra. Qed.
Lemma Sum_le n f g : (forall i, (i < n)%nat -> f i <= g i) -> Sum n f <= Sum n g.
Proof. induction n as [|n IH]; intro H; cbn [Sum]; [lra|]. assert (K := H n ltac:(lia)). assert (K' := IH ltac:(intros; apply H; lia)). lra. Qed.
Lemma Sum_pos n f : (forall i, (i < n)%nat -> 0 <= f i) -> 0 <= Sum n f.
Proof. induction n as [|n IH]; intro H; cbn [Sum]; [lra|]. assert (K := H n ltac:(lia)). assert (K' := IH ltac:(intros; apply H; lia)). lra. Qed.
Lemma Sum_plus n f g : Sum n (fun i => f i + g i) = Sum n f + Sum n g.
Proof. induction n as [|n IH]; cbn [Sum]; [lra|]. rewrite IH. lra. Qed.
Lemma Sum_scale n c f : Sum n (fun i => f i * c) = Sum n f * c.
Proof. induction n as [|n IH]; cbn [Sum]; [lra|]. rewrite IH. lra. Qed.
Lemma Sum_opp n f : Sum n (fun i => - f i) = - Sum n f.
Proof. induction n as [|n IH]; cbn [Sum]; [lra|]. rewrite IH. lra. Qed.
Lemma Sum_const n c : Sum n (fun _ => c) = INR n * c.
Proof. induction n as [|n IH]; cbn [Sum]; [cbn; lra|]. rewrite IH, S_INR. lra. Qed.
Lemma Sum_zero n f : (forall i, (i < n)%nat -> 0 <= f i) -> Sum n f = 0 -> forall i, (i < n)%nat -> f i = 0.
Proof.
  induction n as [|n IH]; intros H E i Hi; [lia|]. cbn [Sum] in E. assert (K := H n ltac:(lia)). assert (K' := Sum_pos (f := f) (n := n) ltac:(intros; apply H; lia)).
  destruct (Nat.eq_dec i n) as [->|N]; [lra|]. apply IH; [intros; apply H; lia|lra|lia].
Qed.
Lemma Sum_ge n f i : (forall j, (j < n)%nat -> 0 <= f j) -> (i < n)%nat -> f i <= Sum n f.
Proof.
  induction n as [|n IH]; intros H Hi; [lia|]. cbn [Sum]. assert (K := H n ltac:(lia)). assert (K' := Sum_pos (f := f) (n := n) ltac:(intros; apply H; lia)).
  destruct (Nat.eq_dec i n) as [->|N]; [lra|]. assert (K2 := IH ltac:(intros; apply H; lia) ltac:(lia)). lra.
Qed.
Lemma Sum_pick n c f : (c < n)%nat -> Sum n (fun j => (if (j =? c)%nat then 1 else 0) * f j) = f c.
Proof.
  induction n as [|n IH]; intro H; [lia|]. cbn [Sum]. destruct (Nat.eq_dec c n) as [->|N].
  - rewrite Nat.eqb_refl. rewrite (Sum_ext (g := fun _ => 0)), Sum_const; [lra|]. intros i Hi. destruct (Nat.eqb_spec i n); [lia|lra].
  - rewrite IH by lia. destruct (Nat.eqb_spec n c); [lia|lra].
Qed.
Lemma sumR_Sum l : sumR l = Sum (List.length l) (fun i => nth i l 0).
Proof. induction l as [|x l IH]; [reflexivity|]. cbn [List.length]. rewrite Sum_shift. cbn [nth]. unfold sumR in *. cbn [fold_right]. rewrite IH. reflexivity. Qed.
Lemma sum_combine X Y (f : X -> Y -> R) dx dy : forall p t k, List.length p = k -> List.length t = k -> sumR (map (fun '(x, y) => f x y) (combine p t)) = Sum k (fun j => f (nth j p dx) (nth j t dy)).
Proof.
  induction p as [|x p IH]; intros [|y t] k L1 L2; cbn [List.length] in *; subst k; try discriminate; [reflexivity|]. rewrite Sum_shift. cbn [combine map nth]. unfold sumR in *. cbn [fold_right]. rewrite (IH t (List.length p)); [reflexivity|reflexivity|lia].
Qed.
Lemma sumR_app l1 l2 : sumR (l1 ++ l2) = sumR l1 + sumR l2.
Proof. unfold sumR. induction l1 as [|x l IH]; cbn [app fold_right]; [lra|]. rewrite IH. lra. Qed.
Lemma sumR_concat ls : sumR (List.concat ls) = sumR (map sumR ls).
Proof. induction ls as [|l ls IH]; [reflexivity|]. cbn [List.concat map]. rewrite sumR_app, IH. reflexivity. Qed.
Lemma all_some X (l : list X) : all_finite (map Some l) = Some l.
Proof. induction l as [|x l IH]; [reflexivity|]. cbn [map all_finite obind]. rewrite IH. reflexivity. Qed.
Lemma nth_len X (l : list (list X)) i k : (i < List.length l)%nat -> (forall r, In r l -> List.length r = k) -> List.length (nth i l []) = k.
Proof. intros H A. apply A, nth_In, H. Qed.

(** one row *)
Lemma row_norm eps k p : List.length p = k -> 0 < eps -> (forall j, (j < k)%nat -> 0 <= nth j p 0) -> sumR (map Rabs (map (fun x => x + eps) p)) = Sum k (fun j => nth j p 0) + INR k * eps.
Proof.
  intros L E H. rewrite map_map, sumR_Sum, map_length, L. rewrite <- (Sum_const k eps), <- Sum_plus. apply Sum_ext. intros i Hi.
  rewrite (nth_indep _ 0 (Rabs (0 + eps))) by (rewrite map_length, L; exact Hi). rewrite (map_nth (fun x => Rabs (x + eps))). apply Rabs_pos_eq. specialize (H i Hi). lra.
Qed.
Lemma row_ok eps k p t : List.length p = k -> List.length t = k -> 0 < eps -> (forall j, (j < k)%nat -> 0 <= nth j p 0) ->
  map (fun '(p, t) => obind p (fun p => obind (np_log p) (fun l => Some (t * l)))) (combine (let y_smoothed := map (fun x => x + eps) p in let l1_norm := sumR (map Rabs y_smoothed) in map (fun x => np_div x l1_norm) y_smoothed) t) =
  map Some (map (fun '(x, y) => y * ln ((x + eps) / (Sum k (fun j => nth j p 0) + INR k * eps))) (combine p t)).
Proof.
  intros L1 L2 E H. cbv zeta. rewrite (row_norm L1 E H). rewrite map_map. set (s := Sum k (fun j => nth j p 0) + INR k * eps).
  assert (PS : k <> 0%nat -> 0 < s).
  { intro N. unfold s. assert (K := Sum_pos H). assert (K2 : 0 < INR k) by (apply lt_0_INR; lia). assert (K3 := Rmult_lt_0_compat _ _ K2 E). lra. }
  assert (G : forall x, In x p -> obind (np_div (x + eps) s) (fun q => np_log q) = Some (ln ((x + eps) / s))).
  { intros x Hx. destruct (In_nth _ _ 0 Hx) as (j & Lj & Ej). specialize (H j ltac:(lia)). rewrite Ej in H. assert (P := PS ltac:(lia)). unfold np_div. destruct (Req_EM_T s 0) as [Z|Z]; [lra|]. cbn [obind]. unfold np_log.
    destruct (Rlt_dec 0 ((x + eps) / s)) as [Q|Q]; [reflexivity|]. exfalso. apply Q. apply Rdiv_lt_0_compat; lra. }
  clearbody s. clear PS H L1 L2. revert t. induction p as [|x p IH]; intros [|y t]; try reflexivity. cbn [map combine]. rewrite IH by (intros; apply G; right; assumption). f_equal. assert (K := G x (or_introl eq_refl)). destruct (np_div (x + eps) s) as [q|]; [|discriminate]. cbn [obind] in *. rewrite K. reflexivity.
Qed.

Section CE.
  Variables (n k : nat) (eps : R) (p t : matrix).
  Hypotheses (Np : (0 < n)%nat) (E : 0 < eps) (Sp : has_shape n k p) (St : has_shape n k t) (Pp : non_negative n k p).
  Lemma ce_value : calculate_ce eps p t = Ok (Some (cross_entropy n k (smoothed k eps p) t)).
  Proof.
    destruct Sp as (R1 & C1 & L1 & A1). destruct St as (R2 & C2 & L2 & A2). unfold calculate_ce, match_shapes. rewrite R1, R2, C1, C2, !Nat.eqb_refl. cbn [andb bind]. f_equal. unfold smooth_and_normalise.
    set (rowv := fun a b : list R => map (fun '(x, y) => y * ln ((x + eps) / (Sum k (fun j => nth j a 0) + INR k * eps))) (combine a b)).
    assert (EQ : map (fun '(ps, ts) => map (fun '(p, t) => obind p (fun p => obind (np_log p) (fun l => Some (t * l)))) (combine ps ts))
       (combine (map (fun row => let y_smoothed := map (fun x => x + eps) row in let l1_norm := sumR (map Rabs y_smoothed) in map (fun x => np_div x l1_norm) y_smoothed) (m_data p)) (m_data t)) =
       map (map Some) (map (fun '(a, b) => rowv a b) (combine (m_data p) (m_data t)))).
    { assert (PP : forall a, In a (m_data p) -> List.length a = k /\ forall j, (j < k)%nat -> 0 <= nth j a 0).
      { intros a Ha. split; [apply A1; exact Ha|]. intros j Hj. destruct (In_nth _ _ [] Ha) as (i & Li & Ei). rewrite L1 in Li. assert (K := Pp Li Hj). unfold at_ in K. rewrite Ei in K. exact K. }
      clear - PP A2 E. revert PP A2. generalize (m_data p) as a. generalize (m_data t) as b. intros b a. revert b. induction a as [|x a IH]; intros [|y b] PP A2; try reflexivity. cbn [map combine].
      rewrite IH; [|intros; apply PP; right; assumption|intros; apply A2; right; assumption]. f_equal. destruct (PP x (or_introl eq_refl)) as (Lx & Px). apply row_ok; auto. apply A2. left. reflexivity. }
    cbv zeta in EQ |- *. rewrite EQ. rewrite <- concat_map, all_some. cbn [obind]. unfold np_div. destruct (Req_EM_T (INR n) 0) as [Z|Z]; [exfalso; apply (not_0_INR n); [lia|exact Z]|]. f_equal. unfold cross_entropy. f_equal. f_equal.
    rewrite sumR_concat, map_map.
    assert (EM : map (fun x : list R * list R => sumR (let '(a, b) := x in rowv a b)) (combine (m_data p) (m_data t)) = map (fun '(a, b) => sumR (rowv a b)) (combine (m_data p) (m_data t))) by (apply map_ext; intros [a b]; reflexivity).
    rewrite EM. rewrite (sum_combine (fun a b => sumR (rowv a b)) [] [] (k := n)) by assumption. apply Sum_ext. intros i Hi. unfold rowv.
    rewrite (sum_combine (fun x y => y * ln ((x + eps) / (Sum k (fun j => nth j (nth i (m_data p) []) 0) + INR k * eps))) 0 0 (k := k)); [reflexivity| |]; apply nth_len; try assumption; lia.
  Qed.
  Lemma smoothed_pos i j : (i < n)%nat -> (j < k)%nat -> 0 < smoothed k eps p i j <= 1.
  Proof.
    intros Hi Hj. unfold smoothed. assert (K := Sum_ge (f := at_ p i) (n := k) (i := j) ltac:(intros; apply Pp; assumption) Hj). assert (P := Pp Hi Hj).
    assert (I1 : 1 <= INR k) by (change 1 with (INR 1); apply le_INR; lia). assert (I2 : eps <= INR k * eps) by (rewrite <- (Rmult_1_l eps) at 1; apply Rmult_le_compat_r; lra).
    split; [apply Rdiv_lt_0_compat; lra|]. apply Rmult_le_reg_r with (Sum k (at_ p i) + INR k * eps); [lra|]. unfold Rdiv. rewrite Rmult_assoc, Rinv_l by lra. lra.
  Qed.
  Lemma smoothed_sum i : (i < n)%nat -> (0 < k)%nat -> Sum k (smoothed k eps p i) = 1.
  Proof.
    intros Hi Hk. unfold smoothed, Rdiv. rewrite Sum_scale, Sum_plus, Sum_const. apply Rinv_r. assert (K := Sum_pos (f := at_ p i) (n := k) ltac:(intros; apply Pp; assumption)). assert (I1 : 0 < INR k) by (apply lt_0_INR; exact Hk). assert (I2 := Rmult_lt_0_compat _ _ I1 E). lra.
  Qed.
  Lemma ln_neg x : 0 < x <= 1 -> ln x <= 0.
  Proof. intros (H1 & H2). rewrite <- ln_1. destruct (Req_dec x 1) as [->|N]; [lra|]. apply Rlt_le, ln_increasing; lra. Qed.
  Lemma ce_nonneg : non_negative n k t -> 0 <= cross_entropy n k (smoothed k eps p) t.
  Proof.
    intro Pt. unfold cross_entropy. apply Rmult_le_pos; [|apply Rlt_le, Rinv_0_lt_compat, lt_0_INR; exact Np].
    rewrite <- Sum_opp. apply Sum_pos. intros i Hi. rewrite <- Sum_opp. apply Sum_pos. intros j Hj. assert (K := ln_neg (smoothed_pos Hi Hj)). assert (K2 := Pt i j Hi Hj). assert (K3 := Rmult_le_pos _ _ K2 (Ropp_0_ge_le_contravar _ (Rle_ge _ _ K))). lra.
  Qed.
  Lemma ce_one_hot c : one_hot n k t c -> cross_entropy n k (smoothed k eps p) t = - Sum n (fun i => ln (smoothed k eps p i (c i))) / INR n.
  Proof.
    intro H. unfold cross_entropy. do 2 f_equal. apply Sum_ext. intros i Hi. destruct (H i Hi) as (Hc & Hj). rewrite <- (Sum_pick (fun j => ln (smoothed k eps p i j)) Hc). apply Sum_ext. intros j Lj. rewrite Hj by exact Lj. reflexivity.
  Qed.
  (** Gibbs' inequality *)
  Lemma ln_le x : 0 < x -> ln x <= x - 1 /\ (ln x = x - 1 -> x = 1).
  Proof.
    intro P. destruct (Req_dec (ln x) 0) as [Z|Z].
    - rewrite <- (exp_ln x P) at 2 4. rewrite Z, exp_0. split; [lra|]. intros _. rewrite <- (exp_ln x P), Z. apply exp_0.
    - assert (K := exp_ineq1 (ln x) Z). rewrite exp_ln in K by exact P. split; lra.
  Qed.
  Lemma gibbs_term q y : 0 < q -> 0 <= y -> y * ln q - y * ln y <= q - y /\ (y * ln q - y * ln y = q - y -> q = y).
  Proof.
    intros Q [Y|<-]; [|split; [lra|intro; lra]]. assert (D : 0 < q / y) by (apply Rdiv_lt_0_compat; lra). destruct (ln_le D) as (K & K').
    assert (L : ln (q / y) = ln q - ln y) by (unfold Rdiv; rewrite ln_mult, ln_Rinv by (try apply Rinv_0_lt_compat; lra); lra). rewrite L in K, K'.
    assert (QY : q / y * y = q) by (field; lra). split.
    - assert (M := Rmult_le_compat_l y _ _ (Rlt_le _ _ Y) K). assert (y * (q / y - 1) = q - y) by (rewrite <- QY at 2; ring). lra.
    - intro EQ. assert (M : y * (ln q - ln y) = y * (q / y - 1)) by (replace (y * (q / y - 1)) with (q / y * y - y) by ring; rewrite QY; lra). apply Rmult_eq_reg_l in M; [|lra]. specialize (K' M). rewrite K' in QY. lra.
  Qed.
  Lemma ce_minimum : distributions n k t -> entropy n k t <= cross_entropy n k (smoothed k eps p) t /\
    (cross_entropy n k (smoothed k eps p) t = entropy n k t <-> forall i j, (i < n)%nat -> (j < k)%nat -> smoothed k eps p i j = at_ t i j).
  Proof.
    clear Sp St. intros (Pt & St1). assert (Hk : (0 < k)%nat) by (destruct k; [assert (K := St1 0%nat Np); cbn in K; lra|lia]).
    set (gap := fun i => Sum k (fun j => (smoothed k eps p i j - at_ t i j) + - (at_ t i j * ln (smoothed k eps p i j)) + at_ t i j * ln (at_ t i j))).
    assert (G : forall i, (i < n)%nat -> gap i = - Sum k (fun j => at_ t i j * ln (smoothed k eps p i j)) + Sum k (fun j => at_ t i j * ln (at_ t i j))).
    { intros i Hi. unfold gap. rewrite Sum_plus, Sum_plus, Sum_opp. assert (Z : Sum k (fun j => smoothed k eps p i j - at_ t i j) = 0).
      { unfold Rminus. rewrite Sum_plus, Sum_opp, smoothed_sum, (St1 i Hi) by assumption. lra. } rewrite Z. lra. }
    assert (GP : forall i j, (i < n)%nat -> (j < k)%nat -> 0 <= (smoothed k eps p i j - at_ t i j) + - (at_ t i j * ln (smoothed k eps p i j)) + at_ t i j * ln (at_ t i j)).
    { intros i j Hi Hj. destruct (gibbs_term (proj1 (smoothed_pos Hi Hj)) (Pt i j Hi Hj)) as (K & _). lra. }
    assert (D : cross_entropy n k (smoothed k eps p) t - entropy n k t = Sum n gap / INR n).
    { unfold entropy, cross_entropy. rewrite (Sum_ext (n := n) (f := gap) (g := fun i => - Sum k (fun j => at_ t i j * ln (smoothed k eps p i j)) + Sum k (fun j => at_ t i j * ln (at_ t i j)))) by exact G.
      rewrite Sum_plus, Sum_opp. unfold Rdiv. ring. }
    assert (IN : 0 < INR n) by (apply lt_0_INR; exact Np). assert (SG : 0 <= Sum n gap) by (apply Sum_pos; intros i Hi; apply Sum_pos; intros j Hj; apply GP; assumption).
    split.
    - assert (K : 0 <= Sum n gap / INR n) by (apply Rmult_le_pos; [exact SG|apply Rlt_le, Rinv_0_lt_compat; exact IN]). lra.
    - split.
      + intros EQ i j Hi Hj. assert (Z : Sum n gap = 0).
        { assert (Z : Sum n gap / INR n = 0) by lra. apply (f_equal (fun x => x * INR n)) in Z. unfold Rdiv in Z. rewrite Rmult_assoc, Rinv_l, Rmult_1_r, Rmult_0_l in Z by lra. exact Z. }
        assert (Z2 := Sum_zero (fun i Hi => Sum_pos (fun j Hj => GP i j Hi Hj)) Z Hi). assert (Z3 := Sum_zero (fun j Hj => GP i j Hi Hj) Z2 Hj). cbn beta in Z3.
        apply (proj2 (gibbs_term (proj1 (smoothed_pos Hi Hj)) (Pt i j Hi Hj))). lra.
      + intro EQ. unfold entropy, cross_entropy. do 2 f_equal. apply Sum_ext. intros i Hi. apply Sum_ext. intros j Hj. rewrite EQ by assumption. reflexivity.
  Qed.
End CE.

Lemma mse_value n k p t : has_shape n k p -> has_shape n k t -> (0 < n * k)%nat -> calculate_mse p t = Ok (Some (mean_square n k p t)).
Proof.
  intros (R1 & C1 & L1 & A1) (R2 & C2 & L2 & A2) N. unfold calculate_mse, match_shapes. rewrite R1, R2, C1, C2, !Nat.eqb_refl. cbn [andb bind]. f_equal. unfold np_div. destruct (Req_EM_T (INR (n * k)) 0) as [Z|Z]; [exfalso; apply (not_0_INR (n * k)); [lia|exact Z]|]. f_equal. unfold mean_square. f_equal.
  rewrite sumR_concat, map_map.
  rewrite (map_ext _ (fun '(a, b) => sumR (map (fun '(p, t) => (p - t) ^ 2) (combine a b)))) by (intros [a b]; reflexivity).
  rewrite (sum_combine (fun a b => sumR (map (fun '(p, t) => (p - t) ^ 2) (combine a b))) [] [] (k := n)) by assumption. apply Sum_ext. intros i Hi.
  rewrite (sum_combine (fun x y => (x - y) ^ 2) 0 0 (k := k)); [reflexivity| |]; apply nth_len; try assumption; lia.
Qed.
Lemma mse_nonneg n k p t : (0 < n * k)%nat -> 0 <= mean_square n k p t /\ (mean_square n k p t = 0 <-> forall i j, (i < n)%nat -> (j < k)%nat -> at_ p i j = at_ t i j).
Proof.
  intro N. assert (IN : 0 < INR (n * k)) by (apply lt_0_INR; exact N). unfold mean_square.
  assert (SQ : forall x : R, 0 <= x ^ 2) by (intro x; apply pow2_ge_0).
  split; [apply Rmult_le_pos; [apply Sum_pos; intros; apply Sum_pos; auto|apply Rlt_le, Rinv_0_lt_compat; exact IN]|]. split.
  - intros Z i j Hi Hj. apply (f_equal (fun x => x * INR (n * k))) in Z. unfold Rdiv in Z. rewrite Rmult_assoc, Rinv_l, Rmult_1_r, Rmult_0_l in Z by lra.
    assert (Z2 := Sum_zero (fun i Hi => Sum_pos (fun j Hj => SQ (at_ p i j - at_ t i j))) Z Hi). assert (Z3 := Sum_zero (fun j Hj => SQ (at_ p i j - at_ t i j)) Z2 Hj). cbn beta in Z3. apply Rmult_integral in Z3. rewrite Rmult_1_r in Z3. lra.
  - intro EQ. rewrite (Sum_ext (g := fun _ => 0)); [rewrite Sum_const; unfold Rdiv; lra|]. intros i Hi. rewrite (Sum_ext (g := fun _ => 0)); [rewrite Sum_const; lra|]. intros j Hj. rewrite EQ by assumption. ring.
Qed.
Lemma mse_sym n k p t : mean_square n k p t = mean_square n k t p.
Proof. unfold mean_square. f_equal. apply Sum_ext. intros. apply Sum_ext. intros. ring. Qed.

(** sparse labels *)
Lemma dense_shape y : has_shape (List.length y) 2 (dense y).
Proof. split; [reflexivity|]. split; [reflexivity|]. split; [apply map_length|]. cbn [dense m_data]. intros r H. apply in_map_iff in H. destruct H as (x & <- & _). reflexivity. Qed.
Lemma dense_at y i : (i < List.length y)%nat -> at_ (dense y) i 0 = 1 - nth i y 0 /\ at_ (dense y) i 1 = nth i y 0.
Proof.
  intro H. unfold at_, dense. cbn [m_data]. rewrite (nth_indep _ [] [1 - 0; 0]) by (rewrite map_length; exact H). rewrite (map_nth (fun x => [1 - x; x])). split; reflexivity.
Qed.
Lemma bce_value eps p t n : (0 < n)%nat -> 0 < eps -> List.length p = n -> List.length t = n -> (forall i, (i < n)%nat -> 0 <= nth i p 0 <= 1) ->
  calculate_bce_sparse eps p t = Ok (Some (- Sum n (fun i => (1 - nth i t 0) * ln ((1 - nth i p 0 + eps) / (1 + 2 * eps)) + nth i t 0 * ln ((nth i p 0 + eps) / (1 + 2 * eps))) / INR n)).
Proof.
  intros N E L1 L2 P. unfold calculate_bce_sparse. rewrite L1, L2, Nat.eqb_refl. rewrite (@ce_value n 2 eps (dense p) (dense t) N E).
  - do 2 f_equal. unfold cross_entropy. do 2 f_equal. apply Sum_ext. intros i Hi. cbn [Sum]. unfold smoothed. cbn [Sum]. destruct (@dense_at p i ltac:(lia)) as (-> & ->). destruct (@dense_at t i ltac:(lia)) as (-> & ->). cbn [INR].
    replace (0 + (1 - nth i p 0) + nth i p 0 + (1 + 1) * eps) with (1 + 2 * eps) by ring. ring.
  - rewrite <- L1. apply dense_shape.
  - rewrite <- L2. apply dense_shape.
  - intros i j Hi Hj. specialize (P i Hi). destruct (@dense_at p i ltac:(lia)) as (E0 & E1). destruct j as [|[|j]]; [rewrite E0; lra|rewrite E1; lra|lia].
Qed.

(** normalisation *)
Lemma sumR_scale c l : sumR (map (fun x => x / c) l) = sumR l / c.
Proof. unfold sumR. induction l as [|x l IH]; cbn [map fold_right]; [unfold Rdiv; ring|]. rewrite IH. unfold Rdiv. ring. Qed.
Lemma sumR_pos l : (forall x, In x l -> 0 <= x) -> 0 <= sumR l.
Proof. unfold sumR. induction l as [|x l IH]; intro H; cbn [fold_right]; [lra|]. assert (K := H x (or_introl eq_refl)). assert (K' := IH (fun y Hy => H y (or_intror Hy))). lra. Qed.
Lemma nth_map_R X (f : X -> R) l i d : (i < List.length l)%nat -> nth i (map f l) 0 = f (nth i l d).
Proof. intro H. rewrite (nth_indep _ 0 (f d)) by (rewrite map_length; exact H). apply map_nth. Qed.
Section Norm.
  Variables (X : Type) (mag : X -> R) (xs : list X) (d : X).
  Hypothesis M : forall x, 0 <= mag x.
  Lemma norm_pos : 0 <= sumR (map mag xs).
  Proof. apply sumR_pos. intros x H. apply in_map_iff in H. destruct H as (y & <- & _). apply M. Qed.
  Lemma sumR_mag : sumR (map mag xs) = Sum (List.length xs) (fun i => mag (nth i xs d)).
  Proof. rewrite sumR_Sum, map_length. apply Sum_ext. intros i Hi. apply nth_map_R. exact Hi. Qed.
  Lemma norm_len b : List.length (normalise_vector mag b xs) = List.length xs.
  Proof. unfold normalise_vector. destruct b; [apply map_length|]. cbv zeta. rewrite !map_length. reflexivity. Qed.
  Lemma norm_at i : (i < List.length xs)%nat -> nth i (normalise_vector mag false xs) 0 = mag (nth i xs d) / Rmax (1 / 10 ^ 9) (Sum (List.length xs) (fun i => mag (nth i xs d))).
  Proof. intro H. unfold normalise_vector. cbv zeta. rewrite map_map, (nth_map_R _ d H), sumR_mag. reflexivity. Qed.
  Lemma eps_pos : 0 < 1 / 10 ^ 9.
  Proof. apply Rdiv_lt_0_compat; [lra|apply pow_lt; lra]. Qed.
  Lemma norm_nonneg i : (i < List.length xs)%nat -> 0 <= nth i (normalise_vector mag false xs) 0.
  Proof. intro H. rewrite (norm_at H). apply Rmult_le_pos; [apply M|]. apply Rlt_le, Rinv_0_lt_compat. eapply Rlt_le_trans; [apply eps_pos|apply Rmax_l]. Qed.
  Lemma norm_sum : Sum (List.length xs) (fun i => nth i (normalise_vector mag false xs) 0) = Sum (List.length xs) (fun i => mag (nth i xs d)) / Rmax (1 / 10 ^ 9) (Sum (List.length xs) (fun i => mag (nth i xs d))).
  Proof. rewrite (Sum_ext (g := fun i => mag (nth i xs d) * / Rmax (1 / 10 ^ 9) (Sum (List.length xs) (fun i => mag (nth i xs d))))); [apply Sum_scale|]. intros i Hi. apply norm_at. exact Hi. Qed.
  Lemma norm_le : Sum (List.length xs) (fun i => nth i (normalise_vector mag false xs) 0) <= 1.
  Proof.
    rewrite norm_sum. assert (P : 0 < Rmax (1 / 10 ^ 9) (Sum (List.length xs) (fun i => mag (nth i xs d)))) by (eapply Rlt_le_trans; [apply eps_pos|apply Rmax_l]).
    apply Rmult_le_reg_r with (Rmax (1 / 10 ^ 9) (Sum (List.length xs) (fun i => mag (nth i xs d)))); [exact P|]. unfold Rdiv at 1. rewrite Rmult_assoc, Rinv_l, Rmult_1_r, Rmult_1_l by lra. apply Rmax_r.
  Qed.
  Lemma norm_zero : (forall x, In x xs -> mag x = 0) -> normalise_vector mag false xs = map mag xs.
  Proof. intro Z. unfold normalise_vector. cbv zeta. rewrite map_map. apply map_ext_in. intros x Hx. rewrite (Z x Hx). unfold Rdiv. ring. Qed.
End Norm.
