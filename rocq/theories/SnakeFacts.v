(** Interchange: soundness (lemmas only). *)
From Verif Require Import PyBase PyFacts TyModel TyFacts DiagModel DiagSpec DiagFacts DiagPerm DiagMisc
  Cat CatFacts BoxEq SnakeModel.
Set Implicit Arguments. Unset Strict Implicit.

Lemma split_right (l0 c0 r0 l1 d1 r1 : ty) : l0 ++ c0 ++ r0 = l1 ++ d1 ++ r1 ->
  List.length l1 + List.length d1 <= List.length l0 ->
  let m := skipn (List.length (l1 ++ d1)) l0 in l0 = l1 ++ d1 ++ m /\ r1 = m ++ c0 ++ r0.
Proof.
  intros E L m.
  assert (l0 = (l1 ++ d1) ++ m).
  { unfold m. rewrite <- (firstn_skipn (List.length (l1 ++ d1)) l0) at 1. f_equal.
    transitivity (firstn (List.length (l1 ++ d1)) (l0 ++ c0 ++ r0)).
    - rewrite firstn_app. replace (_ - _) with 0 by (rewrite app_length; lia). now rewrite firstn_O, app_nil_r.
    - rewrite E, app_assoc, firstn_app, Nat.sub_diag, firstn_O, app_nil_r. apply firstn_all. }
  split; [now rewrite app_assoc|].
  rewrite H, <- !app_assoc in E. now do 2 apply app_inv_head in E.
Qed.

Notation boxes_ok := (All (fun x => box_ok (l_box x))).
(** same typing, same meaning *)
Definition leqv (d : ty) (ls ks : list layer) (c : ty) : Prop :=
  chain d ls c /\ boxes_ok ls /\ chain d ks c /\ boxes_ok ks /\
  forall (C : smc) (I : interp C), heq C (den_layers I c ls) (den_layers I c ks).

Lemma leqv_refl d ls c : chain d ls c -> boxes_ok ls -> leqv d ls ls c.
Proof. intros; repeat split; auto; intros; reflexivity. Qed.
Lemma leqv_trans d ls ks hs c : leqv d ls ks c -> leqv d ks hs c -> leqv d ls hs c.
Proof.
  intros (A & B & C & D & E) (A' & B' & C' & D' & E'). repeat split; auto.
  intros. etransitivity; [apply E|apply E'].
Qed.
Lemma leqv_sym d ls ks c : leqv d ls ks c -> leqv d ks ls c.
Proof. intros (A & B & C & D & E). repeat split; auto. intros; symmetry; apply E. Qed.

Lemma leqv_ctx d pre m ls ks m' post c : chain d pre m -> leqv m ls ks m' -> chain m' post c ->
  boxes_ok pre -> boxes_ok post -> leqv d (pre ++ ls ++ post) (pre ++ ks ++ post) c.
Proof.
  intros P (A & B & A' & B' & E) Q BP BQ. repeat split.
  - eapply chain_app_i; [eauto|eapply chain_app_i; eauto].
  - rewrite !All_app; auto.
  - eapply chain_app_i; [eauto|eapply chain_app_i; eauto].
  - rewrite !All_app; auto.
  - intros C I.
    rewrite (@den_layers_app C I pre (ls ++ post) d m c), (@den_layers_app C I pre (ks ++ post) d m c);
      eauto using chain_app_i; try (rewrite All_app; auto).
    apply cmp_heq; [reflexivity|].
    rewrite (@den_layers_app C I ls post m m' c), (@den_layers_app C I ks post m m' c); auto.
    apply cmp_heq; [apply E|reflexivity].
Qed.

(** what a successful exchange of two adjacent layers does *)
Inductive exch (x0 x1 y0 y1 : layer) : Prop :=
| exch_left (* x0 left of x1 *) l0 b0 m b1 r1 :
    x0 = (l0, b0, m ++ b_dom b1 ++ r1) -> x1 = (l0 ++ b_cod b0 ++ m, b1, r1) ->
    y0 = (l0 ++ b_dom b0 ++ m, b1, r1) -> y1 = (l0, b0, m ++ b_cod b1 ++ r1) ->
    exch x0 x1 y0 y1
| exch_right (* x0 right of x1 *) l1 b0 m b1 r0 :
    x0 = (l1 ++ b_dom b1 ++ m, b0, r0) -> x1 = (l1, b1, m ++ b_cod b0 ++ r0) ->
    y0 = (l1, b1, m ++ b_dom b0 ++ r0) -> y1 = (l1 ++ b_cod b1 ++ m, b0, r0) ->
    exch x0 x1 y0 y1.

Lemma commute_left x0 x1 : l_cod x0 = l_dom x1 -> off x0 + ncod x0 <= off x1 ->
  exists l0 b0 m b1 r1,
    x0 = (l0, b0, m ++ b_dom b1 ++ r1) /\ x1 = (l0 ++ b_cod b0 ++ m, b1, r1) /\
    skipn (List.length (l0 ++ b_cod b0)) (l_left x1) = m.
Proof.
  destruct x0 as [[l0 b0] r0], x1 as [[l1 b1] r1]. unfold off, ncod. cbn. intros E L.
  destruct (@split_right l1 (b_dom b1) r1 l0 (b_cod b0) r0 (eq_sym E) L) as [H K].
  do 5 eexists. split; [rewrite K; reflexivity|]. split; [rewrite <- H; reflexivity|reflexivity].
Qed.
Lemma commute_right x0 x1 : l_cod x0 = l_dom x1 -> off x1 + ndom x1 <= off x0 ->
  exists l1 b0 m b1 r0,
    x0 = (l1 ++ b_dom b1 ++ m, b0, r0) /\ x1 = (l1, b1, m ++ b_cod b0 ++ r0) /\
    skipn (List.length (l1 ++ b_dom b1)) (l_left x0) = m.
Proof.
  destruct x0 as [[l0 b0] r0], x1 as [[l1 b1] r1]. unfold off, ndom. cbn. intros E L.
  destruct (@split_right l0 (b_cod b0) r0 l1 (b_dom b1) r1 E L) as [H K].
  do 5 eexists. split; [rewrite <- H; reflexivity|]. split; [rewrite K; reflexivity|reflexivity].
Qed.

Lemma commute_exch left x0 x1 y0 y1 : l_cod x0 = l_dom x1 -> commute left x0 x1 = Ok (y0, y1) ->
  exch x0 x1 y0 y1.
Proof.
  intros E H.
  assert (L : off x0 + ncod x0 <= off x1 ->
     (let '(left0, box0, right0) := x0 in let '(left1, box1, right1) := x1 in
      let middle := skipn (List.length (left0 ++ b_cod box0)) left1 in
      Ok ((left0 ++ b_dom box0 ++ middle, box1, right1),
          (left0, box0, middle ++ b_cod box1 ++ right1))) = Ok (y0, y1) -> exch x0 x1 y0 y1).
  { intros L. destruct (commute_left E L) as (l0 & b0 & m & b1 & r1 & -> & -> & M). cbn in M. cbn zeta. rewrite M.
    intros [= <- <-]. eapply exch_left; reflexivity. }
  assert (R : off x1 + ndom x1 <= off x0 ->
     (let '(left0, box0, right0) := x0 in let '(left1, box1, right1) := x1 in
      let middle := skipn (List.length (left1 ++ b_dom box1)) left0 in
      Ok ((left1, box1, middle ++ b_dom box0 ++ right0),
        (left1 ++ b_cod box1 ++ middle, box0, right0))) = Ok (y0, y1) -> exch x0 x1 y0 y1).
  { intros R. destruct (commute_right E R) as (l0 & b0 & m & b1 & r1 & -> & -> & M). cbn in M. cbn zeta. rewrite M.
    intros [= <- <-]. eapply exch_right; reflexivity. }
  unfold commute in H.
  destruct x0 as [[l0 b0] r0], x1 as [[l1 b1] r1].
  destruct (Nat.leb_spec (off (l0, b0, r0) + ncod (l0, b0, r0)) (off (l1, b1, r1))) as [K|K];
  destruct (Nat.leb_spec (off (l1, b1, r1) + ndom (l1, b1, r1)) (off (l0, b0, r0))) as [K'|K'];
  destruct left; cbn [andb] in H; auto; discriminate.
Qed.

Lemma exch_leqv x0 x1 y0 y1 : exch x0 x1 y0 y1 -> box_ok (l_box x0) -> box_ok (l_box x1) ->
  leqv (l_dom x0) [x0; x1] [y0; y1] (l_cod x1) /\ l_box y0 = l_box x1 /\ l_box y1 = l_box x0.
Proof.
  assert (D : forall C (I : interp C) a b c, box_ok (l_box a) -> box_ok (l_box b) -> l_cod b = c -> l_cod a = l_dom b ->
     heq C (den_layers I c [a; b]) (cmp C (den_layer I a) (den_layer I b))).
  { intros C I a b c A B <- E. cbn [den_layers]. apply cmp_heq; [reflexivity|]. apply cmp_idm_r.
    symmetry. now apply tgt_layer. }
  intros [l0 b0 m b1 r1 -> -> -> ->|l1 b0 m b1 r0 -> -> -> ->]; cbn; intros B0 B1.
  - split; [|auto]. unfold leqv. split; [|split; [|split; [|split]]]; [cbn; rewrite <- ?app_assoc; auto..|intros C I].
    rewrite !D by (cbn; rewrite <- ?app_assoc; auto). now apply commute_layers.
  - split; [|auto]. unfold leqv. split; [|split; [|split; [|split]]]; [cbn; rewrite <- ?app_assoc; auto..|intros C I].
    rewrite !D by (cbn; rewrite <- ?app_assoc; auto). symmetry. now apply commute_layers.
Qed.

(** An adjacent interchange. *)
Lemma interchange_adj_spec left d i d' : wf d -> interchange_adj left d i = Ok d' ->
  exists pre x0 x1 y0 y1 post, List.length pre = i /\
    layers d = pre ++ [x0; x1] ++ post /\ d' = Diag (dom d) (cod d) (pre ++ [y0; y1] ++ post) /\
    exch x0 x1 y0 y1 /\ commute left x0 x1 = Ok (y0, y1) /\
    leqv (dom d) (layers d) (layers d') (cod d).
Proof.
  intros [H B] E. unfold interchange_adj in E.
  destruct (skipn i (layers d)) as [|x0 [|x1 rest]] eqn:S; try discriminate.
  destruct (commute left x0 x1) as [[y0 y1]|] eqn:K; [|discriminate]. injection E as <-.
  assert (L : layers d = firstn i (layers d) ++ [x0; x1] ++ rest) by (now rewrite <- (firstn_skipn i (layers d)), S at 1).
  assert (i < List.length (layers d)).
  { destruct (Nat.lt_ge_cases i (List.length (layers d))) as [|G]; auto. rewrite skipn_all2 in S by auto. discriminate. }
  rewrite L in H, B. apply chain_app in H. destruct H as (m & H1 & H2).
  apply chain_app in H2. destruct H2 as (m' & H2 & H3).
  rewrite !All_app in B. destruct B as (B1 & B2 & B3). cbn in H2, B2. destruct H2 as (-> & E' & <-), B2 as (C0 & C1 & _).
  assert (X : exch x0 x1 y0 y1) by (eapply commute_exch; eauto).
  exists (firstn i (layers d)), x0, x1, y0, y1, rest.
  split; [|split; [|split; [|split; [|split]]]]; auto.
  - rewrite firstn_length. lia.
  - cbn [layers]. pose proof (leqv_ctx H1 (proj1 (exch_leqv X C0 C1)) H3 B1 B3) as Q. rewrite <- L in Q. exact Q.
Qed.

Definition deqv (d e : diagram) : Prop :=
  dom e = dom d /\ cod e = cod d /\ leqv (dom d) (layers d) (layers e) (cod d).
Lemma deqv_wf d e : deqv d e -> wf e.
Proof. intros (D & C & H). unfold wf. rewrite D, C. split; apply H. Qed.
Lemma deqv_refl d : wf d -> deqv d d.
Proof. intros [H B]. repeat split; auto; intros; reflexivity. Qed.
Lemma deqv_trans d e f : deqv d e -> deqv e f -> deqv d f.
Proof.
  intros (A & B & H) (A' & B' & H'). unfold deqv. rewrite A, B in *. split; [|split]; auto. eapply leqv_trans; eauto.
Qed.
Lemma deqv_den d e C (I : interp C) : deqv d e -> heq C (den I d) (den I e).
Proof. intros (A & B & H). unfold den. rewrite B. apply H. Qed.

Lemma interchange_adj_deqv left d i d' : wf d -> interchange_adj left d i = Ok d' -> deqv d d'.
Proof.
  intros W E. destruct (interchange_adj_spec W E) as (pre & x0 & x1 & y0 & y1 & post & L & E1 & -> & X & K & Q).
  split; [|split]; auto.
Qed.

(** ** Moving a box up or down: list-level effect *)
(** box at position j+n moved up to position j *)
Lemma adj_boxes left d i d' : wf d -> interchange_adj left d i = Ok d' ->
  exists pre a b post, List.length pre = i /\ boxes d = pre ++ [a; b] ++ post /\ boxes d' = pre ++ [b; a] ++ post.
Proof.
  intros W E. destruct (interchange_adj_spec W E) as (pre & x0 & x1 & y0 & y1 & post & L & E1 & -> & X & K & Q).
  exists (map l_box pre), (l_box x0), (l_box x1), (map l_box post). rewrite map_length. repeat split; auto.
  - unfold boxes. now rewrite E1, !map_app.
  - unfold boxes. cbn [layers]. rewrite !map_app. cbn. do 2 f_equal.
    + destruct X; subst; auto.
    + f_equal; destruct X; subst; auto.
Qed.

Lemma app_len_inv A (a b c d : list A) : List.length a = List.length b -> a ++ c = b ++ d -> a = b /\ c = d.
Proof. revert b; induction a as [|x a IH]; intros [|y b] L E; try discriminate; auto. cbn in *. injection E as -> E. apply IH in E as [-> ->]; auto. Qed.

Lemma move_up_boxes left n : forall d i d', wf d ->
  foldM (fun d k => interchange_adj left d (i + n - k - 1)) (seq 0 n) d = Ok d' ->
  deqv d d' /\ (i + n < List.length (layers d) ->
  exists pre mid b post, List.length pre = i /\ List.length mid = n /\
    boxes d = pre ++ mid ++ [b] ++ post /\ boxes d' = pre ++ [b] ++ mid ++ post).
Proof.
  induction n as [|n IH]; intros d i d' W E.
  - cbn in E. injection E as <-. split; [now apply deqv_refl|]. intro L.
    assert (L' : i < List.length (boxes d)) by (unfold boxes; rewrite map_length; lia).
    destruct (nth_error (boxes d) i) as [b|] eqn:N; [|apply nth_error_None in N; lia].
    apply nth_error_split in N. destruct N as (pre & post & N & Lp).
    exists pre, [], b, post. auto.
  - cbn [seq foldM] in E.
    destruct (interchange_adj left d (i + S n - 0 - 1)) as [d1|] eqn:E1; [|discriminate]. cbn [bind] in E.
    assert (W1 := deqv_wf (interchange_adj_deqv W E1)).
    assert (E' : foldM (fun d k => interchange_adj left d (i + n - k - 1)) (seq 0 n) d1 = Ok d').
    { rewrite <- E. rewrite <- seq_shift. clear -n. generalize (seq 0 n) d1; clear.
      induction l as [|k l IH]; intros d; cbn; auto. replace (i + n - k - 1) with (i + S n - S k - 1) by lia.
      destruct interchange_adj; cbn; auto. }
    destruct (IH _ _ _ W1 E') as [Q H].
    destruct (adj_boxes W E1) as (pre & a & b & post & Lp & B1 & B2).
    assert (LL : List.length (layers d1) = List.length (layers d)).
    { unfold boxes in *. apply (f_equal (@List.length _)) in B1, B2. rewrite map_length in B1, B2.
      rewrite B1, B2, !app_length. cbn. lia. }
    split; [eapply deqv_trans; eauto using interchange_adj_deqv|]. intro L.
    destruct (H ltac:(lia)) as (pre' & mid & b' & post' & Lp' & Lm & B3 & B4).
    rewrite B2 in B3. replace (i + S n - 0 - 1) with (i + n) in Lp by lia.
    assert (Lpm : List.length (pre' ++ mid) = List.length pre) by (rewrite app_length; lia).
    rewrite (app_assoc pre' mid) in B3. destruct (app_len_inv (eq_sym Lpm) B3) as [-> B5]. cbn in B5. injection B5 as -> <-.
    exists pre', (mid ++ [a]), b', post. rewrite app_length. cbn. repeat split; try lia.
    + rewrite B1. now rewrite <- !app_assoc.
    + rewrite B4. now rewrite <- !app_assoc.
Qed.

Lemma move_down_boxes left n : forall d i d', wf d ->
  foldM (fun d k => interchange_adj left d (i + k)) (seq 0 n) d = Ok d' ->
  deqv d d' /\ (i + n < List.length (layers d) ->
  exists pre mid b post, List.length pre = i /\ List.length mid = n /\
    boxes d = pre ++ [b] ++ mid ++ post /\ boxes d' = pre ++ mid ++ [b] ++ post).
Proof.
  induction n as [|n IH]; intros d i d' W E.
  - cbn in E. injection E as <-. split; [now apply deqv_refl|]. intro L.
    assert (L' : i < List.length (boxes d)) by (unfold boxes; rewrite map_length; lia).
    destruct (nth_error (boxes d) i) as [b|] eqn:N; [|apply nth_error_None in N; lia].
    apply nth_error_split in N. destruct N as (pre & post & N & Lp).
    exists pre, [], b, post. auto.
  - cbn [seq foldM] in E.
    destruct (interchange_adj left d (i + 0)) as [d1|] eqn:E1; [|discriminate]. cbn [bind] in E.
    assert (W1 := deqv_wf (interchange_adj_deqv W E1)).
    assert (E' : foldM (fun d k => interchange_adj left d (S i + k)) (seq 0 n) d1 = Ok d').
    { rewrite <- E. rewrite <- seq_shift. clear -n. generalize (seq 0 n) d1; clear.
      induction l as [|k l IH]; intros d; cbn; auto. replace (i + S k) with (S (i + k)) by lia.
      destruct interchange_adj; cbn; auto. }
    destruct (IH _ _ _ W1 E') as [Q H].
    destruct (adj_boxes W E1) as (pre & a & b & post & Lp & B1 & B2).
    assert (LL : List.length (layers d1) = List.length (layers d)).
    { unfold boxes in *. apply (f_equal (@List.length _)) in B1, B2. rewrite map_length in B1, B2.
      rewrite B1, B2, !app_length. cbn. lia. }
    split; [eapply deqv_trans; eauto using interchange_adj_deqv|]. intro L.
    destruct (H ltac:(lia)) as (pre' & mid & b' & post' & Lp' & Lm & B3 & B4).
    rewrite B2 in B3. rewrite Nat.add_0_r in Lp.
    change (pre ++ [b; a] ++ post) with (pre ++ [b] ++ [a] ++ post) in B3. rewrite (app_assoc pre [b]) in B3.
    assert (Lpm : List.length (pre ++ [b]) = List.length pre') by (rewrite app_length; cbn; lia).
    destruct (app_len_inv Lpm B3) as [<- B5]. cbn in B5. injection B5 as <- ->.
    exists pre, (b :: mid), a, post'. cbn. repeat split; try lia.
    + rewrite B1. reflexivity.
    + rewrite B4. now rewrite <- !app_assoc.
Qed.

Lemma interchange_sound left d i j d' : wf d -> interchange d i j left = Ok d' -> deqv d d'.
Proof.
  unfold interchange. intros W E.
  destruct (negb _); [discriminate|].
  destruct (Nat.eqb_spec (Z.to_nat i) (Z.to_nat j)) as [_|N]; [injection E as <-; now apply deqv_refl|].
  destruct (Nat.ltb_spec (Z.to_nat j) (Z.to_nat i)) as [L|L].
  - eapply (@move_up_boxes left (Z.to_nat i - Z.to_nat j) d (Z.to_nat j)); auto.
    replace (Z.to_nat j + (Z.to_nat i - Z.to_nat j)) with (Z.to_nat i) by lia. exact E.
  - eapply (@move_down_boxes left (Z.to_nat j - Z.to_nat i) d (Z.to_nat i)); auto.
Qed.

Lemma interchange_position left d i j d' : wf d -> interchange d i j left = Ok d' ->
  exists pre mid b post,
    (0 <= i < Z.of_nat (List.length (layers d)))%Z /\ (0 <= j < Z.of_nat (List.length (layers d)))%Z /\
    ((j <= i)%Z /\ List.length pre = Z.to_nat j /\ List.length mid = Z.to_nat i - Z.to_nat j /\
       boxes d = pre ++ mid ++ [b] ++ post /\ boxes d' = pre ++ [b] ++ mid ++ post \/
     (i <= j)%Z /\ List.length pre = Z.to_nat i /\ List.length mid = Z.to_nat j - Z.to_nat i /\
       boxes d = pre ++ [b] ++ mid ++ post /\ boxes d' = pre ++ mid ++ [b] ++ post).
Proof.
  unfold interchange. intros W E.
  destruct (negb _) eqn:Rg; [discriminate|].
  assert (RR : (0 <= i < Z.of_nat (List.length (layers d)))%Z /\ (0 <= j < Z.of_nat (List.length (layers d)))%Z).
  { apply negb_false_iff in Rg. rewrite !andb_true_iff, !Z.leb_le, !Z.ltb_lt in Rg. lia. }
  destruct (Nat.eqb_spec (Z.to_nat i) (Z.to_nat j)) as [Eq|N].
  { injection E as <-. destruct (@move_up_boxes left 0 d (Z.to_nat i) d W) as [_ H]; [reflexivity|].
    destruct H as (pre & mid & b & post & P); [lia|]. exists pre, mid, b, post. split; [lia|]. split; [lia|]. left.
    destruct P as (P1 & P2 & P3 & P4). split; [lia|]. split; [lia|]. split; [lia|]. auto. }
  destruct (Nat.ltb_spec (Z.to_nat j) (Z.to_nat i)) as [L|L].
  - destruct (@move_up_boxes left (Z.to_nat i - Z.to_nat j) d (Z.to_nat j) d' W) as [_ H].
    { replace (Z.to_nat j + (Z.to_nat i - Z.to_nat j)) with (Z.to_nat i) by lia. exact E. }
    destruct H as (pre & mid & b & post & P1 & P2 & P3 & P4); [lia|]. exists pre, mid, b, post.
    split; [lia|]. split; [lia|]. left. split; [lia|]. auto.
  - destruct (@move_down_boxes left (Z.to_nat j - Z.to_nat i) d (Z.to_nat i) d' W E) as [_ H].
    destruct H as (pre & mid & b & post & P1 & P2 & P3 & P4); [lia|]. exists pre, mid, b, post.
    split; [lia|]. split; [lia|]. right. split; [lia|]. auto.
Qed.

Lemma interchange_err left d i j e : wf d -> interchange d i j left = Err e ->
  e = IndexError /\ ~ (0 <= i < Z.of_nat (List.length (layers d)) /\ 0 <= j < Z.of_nat (List.length (layers d)))%Z
  \/ e = InterchangerError.
Proof.
  assert (CE : forall x0 x1 e, commute left x0 x1 = Err e -> e = InterchangerError).
  { intros [[l0 b0] r0] [[l1 b1] r1] e'. unfold commute. repeat destruct (_ && _); repeat destruct (_ <=? _); congruence. }
  assert (AE : forall d n ks, wf d -> List.length (layers d) = n -> Forall (fun k => k + 1 < n) ks ->
      forall e, foldM (interchange_adj left) ks d = Err e -> e = InterchangerError).
  { intros d0 n ks. revert d0. induction ks as [|k ks IH]; intros d0 W L F e' E; [discriminate|]. cbn in E.
    inversion F; subst. destruct (interchange_adj left d0 k) as [d1|] eqn:K.
    - cbn in E. destruct (adj_boxes W K) as (pre & a & b & post & Lp & B1 & B2).
      apply (IH d1); auto; [eapply deqv_wf, interchange_adj_deqv; eauto|].
      unfold boxes in *. apply (f_equal (@List.length _)) in B1, B2. rewrite map_length in B1, B2.
      rewrite B1, B2, !app_length. cbn. lia.
    - cbn in E. injection E as ->. unfold interchange_adj in K.
      destruct (skipn k (layers d0)) as [|x0 [|x1 r]] eqn:S.
      + apply (f_equal (@List.length _)) in S. rewrite skipn_length in S. cbn in S. lia.
      + apply (f_equal (@List.length _)) in S. rewrite skipn_length in S. cbn in S. lia.
      + destruct commute as [[]|] eqn:CC; [discriminate|]. cbn in K. injection K as ->. eauto. }
  assert (FM : forall (g : nat -> nat) ks d, foldM (fun d k => interchange_adj left d (g k)) ks d = foldM (interchange_adj left) (map g ks) d).
  { induction ks as [|k ks IH]; intros; cbn; auto. destruct interchange_adj; cbn; auto. }
  unfold interchange. intros W E.
  destruct (negb _) eqn:Rg.
  { injection E as <-. left; split; auto. intros [A B]. apply negb_true_iff in Rg.
    rewrite <- !andb_assoc in Rg.
    assert (X: ((0 <=? i) && ((i <? Z.of_nat (Datatypes.length (layers d))) && ((0 <=? j) && (j <? Z.of_nat (Datatypes.length (layers d))))))%Z = true); [|congruence].
    rewrite !andb_true_iff, !Z.leb_le, !Z.ltb_lt. lia. }
  assert (RR : (0 <= i < Z.of_nat (List.length (layers d)))%Z /\ (0 <= j < Z.of_nat (List.length (layers d)))%Z).
  { apply negb_false_iff in Rg. rewrite !andb_true_iff, !Z.leb_le, !Z.ltb_lt in Rg. lia. }
  right.
  destruct (Z.to_nat i =? Z.to_nat j); [discriminate|].
  destruct (Nat.ltb_spec (Z.to_nat j) (Z.to_nat i)); rewrite FM in E; (eapply AE; [exact W|reflexivity| |exact E]);
    apply Forall_forall; intros k; rewrite in_map_iff; intros (k0 & <- & K); apply in_seq in K; lia.
Qed.

Lemma interchange_connected d A x0 x1 B left : layers d = A ++ x0 :: x1 :: B ->
  (interchange d (Z.of_nat (List.length A)) (Z.of_nat (List.length A + 1)) left = Err InterchangerError <->
   off x1 < off x0 + ncod x0 /\ off x0 < off x1 + ndom x1).
Proof.
  intros L. unfold interchange.
  replace (negb _) with false.
  2:{ symmetry. apply negb_false_iff. rewrite !andb_true_iff, !Z.leb_le, !Z.ltb_lt, L, app_length. cbn. lia. }
  rewrite !Nat2Z.id. destruct (Nat.eqb_spec (List.length A) (List.length A + 1)); [lia|].
  destruct (Nat.ltb_spec (List.length A + 1) (List.length A)); [lia|].
  replace (List.length A + 1 - List.length A) with 1 by lia. cbn [seq foldM]. rewrite Nat.add_0_r.
  unfold interchange_adj. rewrite L, skipn_app, Nat.sub_diag, skipn_all, skipn_O. cbn [app].
  assert (K : commute left x0 x1 = Err InterchangerError <-> off x1 < off x0 + ncod x0 /\ off x0 < off x1 + ndom x1).
  { unfold commute. destruct x0 as [[l0 b0] r0], x1 as [[l1 b1] r1].
    destruct (Nat.leb_spec (off (l0, b0, r0) + ncod (l0, b0, r0)) (off (l1, b1, r1)));
    destruct (Nat.leb_spec (off (l1, b1, r1) + ndom (l1, b1, r1)) (off (l0, b0, r0)));
    destruct left; cbn [andb]; split; try discriminate; try lia; auto. }
  rewrite <- K. destruct (commute left x0 x1) as [[]|]; cbn; split; congruence.
Qed.
