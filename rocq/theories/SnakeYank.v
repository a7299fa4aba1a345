(** Snake removal: the obstruction-moving algorithm and the yank (lemmas only). *)
From Verif Require Import PyBase PyFacts TyModel TyFacts DiagModel DiagSpec DiagFacts DiagPerm DiagMisc
  Cat CatFacts BoxEq SnakeModel SnakeFacts SnakeSpec.
Set Implicit Arguments. Unset Strict Implicit.

Ltac conjs := repeat match goal with |- _ /\ _ => split end.
Definition mk (d : diagram) ls := Diag (dom d) (cod d) ls.
Definition shifted (a b : nat) (y y' : layer) : Prop := l_box y' = l_box y /\ off y' + a = off y + b.

Lemma commute_adj left d pre x0 x1 post y0 y1 : layers d = pre ++ x0 :: x1 :: post ->
  commute left x0 x1 = Ok (y0, y1) ->
  interchange_adj left d (List.length pre) = Ok (mk d (pre ++ y0 :: y1 :: post)).
Proof.
  intros L K. unfold interchange_adj. rewrite L, skipn_app, Nat.sub_diag, skipn_all, skipn_O. cbn [app].
  rewrite K. cbn [bind]. rewrite firstn_app, Nat.sub_diag, firstn_O, app_nil_r, firstn_all. reflexivity.
Qed.
Lemma wf_mid d pre x0 x1 post : wf d -> layers d = pre ++ x0 :: x1 :: post -> l_cod x0 = l_dom x1.
Proof.
  intros [H _] L. rewrite L in H. apply chain_app in H. destruct H as (m & _ & H). cbn in H. tauto.
Qed.

Lemma adj_right d pre x0 x1 post : wf d -> layers d = pre ++ x0 :: x1 :: post ->
  off x1 + ndom x1 <= off x0 ->
  exists y0 y1, interchange_adj false d (List.length pre) = Ok (mk d (pre ++ y0 :: y1 :: post)) /\
    l_box y0 = l_box x1 /\ off y0 = off x1 /\ shifted (ndom x1) (ncod x1) x0 y1.
Proof.
  intros W L G. pose proof (wf_mid W L) as E.
  assert (K : exists y0 y1, commute false x0 x1 = Ok (y0, y1) /\ l_box y0 = l_box x1 /\ off y0 = off x1 /\ shifted (ndom x1) (ncod x1) x0 y1).
  { destruct (commute_right E G) as (l1 & b0 & m & b1 & r0 & -> & -> & M). unfold commute. cbn [andb].
    apply Nat.leb_le in G. rewrite G. cbn in M. rewrite M.
    do 2 eexists. split; [reflexivity|]. cbn. repeat split. unfold off, ndom, ncod. cbn. rewrite !app_length. lia. }
  destruct K as (y0 & y1 & K & R). exists y0, y1. split; auto. now apply commute_adj with x0 x1.
Qed.
Lemma adj_left d pre x0 x1 post : wf d -> layers d = pre ++ x0 :: x1 :: post ->
  off x0 + ncod x0 <= off x1 -> off x0 < off x1 + ndom x1 ->
  exists y0 y1, interchange_adj false d (List.length pre) = Ok (mk d (pre ++ y0 :: y1 :: post)) /\
    l_box y1 = l_box x0 /\ off y1 = off x0 /\ shifted (ncod x0) (ndom x0) x1 y0.
Proof.
  intros W L G G'. pose proof (wf_mid W L) as E.
  assert (K : exists y0 y1, commute false x0 x1 = Ok (y0, y1) /\ l_box y1 = l_box x0 /\ off y1 = off x0 /\ shifted (ncod x0) (ndom x0) x1 y0).
  { destruct (commute_left E G) as (l0 & b0 & m & b1 & r1 & -> & -> & M). unfold commute. cbn [andb].
    apply Nat.leb_le in G. apply Nat.leb_gt in G'. rewrite G', G. cbn in M. rewrite M.
    do 2 eexists. split; [reflexivity|]. cbn. repeat split. unfold off, ndom, ncod. cbn. rewrite !app_length. lia. }
  destruct K as (y0 & y1 & K & R). exists y0, y1. split; auto. now apply commute_adj with x0 x1.
Qed.

Lemma ncod_box x y : l_box x = l_box y -> ncod x = ncod y.
Proof. unfold ncod. now intros ->. Qed.
Lemma ndom_box x y : l_box x = l_box y -> ndom x = ndom y.
Proof. unfold ndom. now intros ->. Qed.

Lemma fold_up left n i d : foldM (fun d k => interchange_adj left d (i + S n - k - 1)) (seq 0 (S n)) d =
  (do d1 <- interchange_adj left d (i + n);
   foldM (fun d k => interchange_adj left d (i + n - k - 1)) (seq 0 n) d1).
Proof.
  cbn [seq foldM]. replace (i + S n - 0 - 1) with (i + n) by lia.
  destruct interchange_adj as [d1|]; cbn [bind]; auto.
  rewrite <- seq_shift. generalize (seq 0 n) d1; clear.
  induction l as [|k l IH]; intros d; cbn; auto. replace (i + n - k - 1) with (i + S n - S k - 1) by lia.
  destruct interchange_adj; cbn; auto.
Qed.
Lemma fold_down left n i d : foldM (fun d k => interchange_adj left d (i + k)) (seq 0 (S n)) d =
  (do d1 <- interchange_adj left d i;
   foldM (fun d k => interchange_adj left d (S i + k)) (seq 0 n) d1).
Proof.
  cbn [seq foldM]. rewrite Nat.add_0_r.
  destruct interchange_adj as [d1|]; cbn [bind]; auto.
  rewrite <- seq_shift. generalize (seq 0 n) d1; clear.
  induction l as [|k l IH]; intros d; cbn; auto. replace (i + S k) with (S (i + k)) by lia.
  destruct interchange_adj; cbn; auto.
Qed.

Lemma move_up X : forall pre x post d, wf d -> layers d = pre ++ X ++ x :: post ->
  Forall (fun y => off x + ndom x <= off y) X ->
  exists x' X', foldM (fun d k => interchange_adj false d (List.length pre + List.length X - k - 1)) (seq 0 (List.length X)) d
      = Ok (mk d (pre ++ x' :: X' ++ post)) /\
    l_box x' = l_box x /\ off x' = off x /\ Forall2 (shifted (ndom x) (ncod x)) X X'.
Proof.
  induction X as [|y X IH] using rev_ind; intros pre x post d W L F.
  - exists x, []. cbn [List.length seq foldM app] in *. rewrite <- L. destruct d; repeat split; auto.
  - rewrite app_length. cbn [List.length]. rewrite Nat.add_1_r, fold_up.
    apply Forall_app in F. destruct F as [F Fy]. inversion Fy; subst. rewrite <- app_assoc in L. cbn [app] in L.
    rewrite app_assoc in L.
    destruct (adj_right W L ltac:(auto)) as (x1 & y1 & E & Bx & Ox & Sy).
    rewrite app_length in E. rewrite E. cbn [bind].
    assert (W1 : wf (mk d ((pre ++ X) ++ x1 :: y1 :: post))) by (eapply deqv_wf, interchange_adj_deqv; eauto).
    edestruct (IH pre x1 (y1 :: post) _ W1) as (x' & X' & E' & Bx' & Ox' & S').
    { cbn [layers mk]. now rewrite <- app_assoc. }
    { rewrite Ox, (ndom_box Bx). auto. }
    rewrite E'. exists x', (X' ++ [y1]). unfold mk; cbn [dom cod]. rewrite <- (app_assoc X'). split; [reflexivity|].
    split; [congruence|]. split; [congruence|].
    rewrite (ndom_box Bx), (ncod_box Bx) in S'. apply Forall2_app; auto.
Qed.

Lemma move_down X : forall pre x post d, wf d -> layers d = pre ++ x :: X ++ post ->
  Forall (fun y => off x + ncod x <= off y /\ off x < off y + ndom y) X ->
  exists x' X', foldM (fun d k => interchange_adj false d (List.length pre + k)) (seq 0 (List.length X)) d
      = Ok (mk d (pre ++ X' ++ x' :: post)) /\
    l_box x' = l_box x /\ off x' = off x /\ Forall2 (shifted (ncod x) (ndom x)) X X'.
Proof.
  induction X as [|y X IH]; intros pre x post d W L F.
  - exists x, []. cbn [List.length seq foldM app] in *. rewrite <- L. destruct d; repeat split; auto.
  - cbn [List.length]. rewrite fold_down. inversion F as [|? ? [F1 F2] F3]; subst. cbn [app] in L.
    destruct (adj_left W L F1 F2) as (y1 & x1 & E & Bx & Ox & Sy).
    rewrite E. cbn [bind].
    assert (W1 : wf (mk d (pre ++ y1 :: x1 :: X ++ post))) by (eapply deqv_wf, interchange_adj_deqv; eauto).
    edestruct (IH (pre ++ [y1]) x1 post _ W1) as (x' & X' & E' & Bx' & Ox' & S').
    { cbn [layers mk]. now rewrite <- app_assoc. }
    { rewrite Ox, (ncod_box Bx). auto. }
    rewrite app_length in E'. cbn [List.length] in E'. rewrite Nat.add_1_r in E'.
    rewrite E'. exists x', (y1 :: X'). unfold mk; cbn [dom cod]. rewrite <- (app_assoc pre). split; [reflexivity|].
    split; [congruence|]. split; [congruence|].
    rewrite (ndom_box Bx), (ncod_box Bx) in S'. constructor; auto.
Qed.

Lemma interchange_up d (i j : nat) left : j < i -> i < List.length (layers d) ->
  interchange d (Z.of_nat i) (Z.of_nat j) left =
  foldM (fun d k => interchange_adj left d (j + (i - j) - k - 1)) (seq 0 (i - j)) d.
Proof.
  intros L B. unfold interchange.
  replace (negb _) with false.
  2:{ symmetry. apply negb_false_iff. rewrite !andb_true_iff, !Z.leb_le, !Z.ltb_lt. lia. }
  rewrite !Nat2Z.id. destruct (Nat.eqb_spec i j); [lia|]. destruct (Nat.ltb_spec j i); [|lia].
  replace (j + (i - j)) with i by lia. reflexivity.
Qed.
Lemma interchange_down d (i j : nat) left : i < j -> j < List.length (layers d) ->
  interchange d (Z.of_nat i) (Z.of_nat j) left =
  foldM (fun d k => interchange_adj left d (i + k)) (seq 0 (j - i)) d.
Proof.
  intros L B. unfold interchange.
  replace (negb _) with false.
  2:{ symmetry. apply negb_false_iff. rewrite !andb_true_iff, !Z.leb_le, !Z.ltb_lt. lia. }
  rewrite !Nat2Z.id. destruct (Nat.eqb_spec i j); [lia|]. destruct (Nat.ltb_spec j i); [lia|]. reflexivity.
Qed.

(** ** Following a wire *)
Notation flayer := (bool * layer)%type.
Inductive fstrand : nat -> list flayer -> nat -> Prop :=
| fs_nil j : fstrand j [] j
| fs_left j x M j' : off x + ndom x <= j -> fstrand (j + ncod x - ndom x) M j' -> fstrand j ((true, x) :: M) j'
| fs_right j x M j' : j < off x -> fstrand j M j' -> fstrand j ((false, x) :: M) j'.
Fixpoint pos (f : bool) (k : nat) (M : list flayer) : list nat :=
  match M with
  | [] => []
  | (b, _) :: M' => if Bool.eqb b f then k :: pos f (S k) M' else pos f (S k) M'
  end.

Lemma fstrand_strand j M j' : fstrand j M j' -> strand j (map snd M) j'.
Proof. induction 1; [apply strand_nil|apply strand_left|apply strand_right]; auto. Qed.
Lemma strand_fstrand j ls j' : strand j ls j' -> exists M, ls = map snd M /\ fstrand j M j'.
Proof.
  induction 1 as [j|j x ls j' H _ (M & -> & IH)|j x ls j' H _ (M & -> & IH)].
  - exists []. split; auto. constructor.
  - exists ((true, x) :: M). split; auto. constructor; auto.
  - exists ((false, x) :: M). split; auto. constructor; auto.
Qed.

Lemma follow_from_spec rest : forall i j lo ro, exists M rest' j',
  follow_from rest i j lo ro = (S i + List.length M, j', (lo ++ pos true (S i) M, ro ++ pos false (S i) M)) /\
  rest = map snd M ++ rest' /\ fstrand j M j' /\
  (rest' = [] \/ exists y r, rest' = y :: r /\ off y <= j' < off y + ndom y).
Proof.
  induction rest as [|x rest IH]; intros i j lo ro; cbn [follow_from].
  - exists [], [], j. cbn. rewrite Nat.add_0_r, !app_nil_r. repeat split; auto. constructor.
  - destruct (Nat.leb_spec (off x) j) as [L|L]; cbn [andb].
    + destruct (Nat.ltb_spec j (off x + ndom x)) as [L'|L'].
      * exists [], (x :: rest), j. cbn. rewrite Nat.add_0_r, !app_nil_r. repeat split; auto; [constructor|]. right. eauto.
      * destruct (IH (S i) (j + ncod x - ndom x) (lo ++ [S i]) ro) as (M & rest' & j' & E & R & F & Z).
        exists ((true, x) :: M), rest', j'. rewrite E. cbn. rewrite <- app_assoc, R, Nat.add_succ_r. repeat split; auto.
        constructor; auto.
    + destruct (IH (S i) j lo (ro ++ [S i])) as (M & rest' & j' & E & R & F & Z).
      exists ((false, x) :: M), rest', j'. rewrite E. cbn. rewrite <- app_assoc, R, Nat.add_succ_r. repeat split; auto.
      constructor; auto.
Qed.

(** ** Phase 1, left snake *)
Lemma map_seq_bump (a n b : nat) : a + n <= b -> map (fun r => if r <? b then S r else r) (seq a n) = seq (S a) n.
Proof.
  revert a; induction n as [|n IH]; intros a L; cbn [seq map]; auto. rewrite IH by lia. destruct (Nat.ltb_spec a b); [|lia]. reflexivity.
Qed.
Lemma map_pos_above f k M b : b < k -> map (fun r => if r <? b then S r else r) (pos f k M) = pos f k M.
Proof.
  revert k; induction M as [|[g x] M IH]; intros k L; cbn [pos map]; auto. destruct (Bool.eqb g f); cbn [map]; rewrite ?IH by lia; auto.
  destruct (Nat.ltb_spec k b); [lia|]. reflexivity.
Qed.

Definition ph1l := (fun '(d, cap, ro) box =>
            do d' <- interchange d (Z.of_nat box) (Z.of_nat cap) false;
            Ok (d', S cap, map (fun r => if r <? box then S r else r) ro)).

Lemma phase1_left M : forall R pre cap tl d j j', wf d ->
  layers d = pre ++ cap :: R ++ map snd M ++ tl -> off cap = j -> Forall (fun y => j < off y) R ->
  fstrand j M j' ->
  exists pre' cap' R' d',
    foldM ph1l (pos true (List.length pre + 1 + List.length R) M)
       (d, List.length pre, seq (List.length pre + 1) (List.length R) ++ pos false (List.length pre + 1 + List.length R) M)
    = Ok (d', List.length pre', seq (List.length pre' + 1) (List.length R')) /\
    deqv d d' /\ layers d' = pre' ++ cap' :: R' ++ tl /\ l_box cap' = l_box cap /\ off cap' = j' /\
    Forall (fun y => j' < off y) R' /\
    List.length pre' + List.length R' = List.length pre + List.length R + List.length M /\
    Permutation (boxes d) (boxes d').
Proof.
  induction M as [|[f x] M IH]; intros R pre cap tl d j j' W L O F S.
  - inversion S; subst. exists pre, cap, R, d. cbn. rewrite app_nil_r. conjs; auto; try lia. now apply deqv_refl.
  - inversion S as [|? ? ? ? G S'|? ? ? ? G S']; subst.
    + cbn [pos Bool.eqb foldM].
      assert (ML := @move_up (cap :: R) pre x (map snd M ++ tl) d W).
      destruct ML as (x' & X' & E & Bx & Ox & Sh).
      { rewrite L. reflexivity. }
      { constructor; [lia|]. eapply Forall_impl; [|exact F]. cbn. lia. }
      cbn [List.length] in E.
      set (box := List.length pre + 1 + List.length R) in *.
      assert (Lb : box < List.length (layers d)) by (rewrite L, app_length; cbn; rewrite app_length; cbn; unfold box; lia).
      unfold ph1l at 1. rewrite interchange_up by (auto; unfold box; lia).
      replace (box - List.length pre) with (Datatypes.S (List.length R)) by (unfold box; lia).
      rewrite E. cbn [bind]. inversion Sh as [|? cap' ? R' [Bc Oc] ShR]; subst X'; subst.
      set (d1 := mk d (pre ++ x' :: (cap' :: R') ++ map snd M ++ tl)) in *.
      assert (Q : deqv d d1).
      { eapply (@move_up_boxes false (Datatypes.S (List.length R)) d (List.length pre)); auto. }
      assert (LR : List.length R' = List.length R) by (clear - ShR; induction ShR; cbn; congruence).
      destruct (IH R' (pre ++ [x']) cap' tl d1 (off cap') j') as (pre' & cap'' & R'' & d' & E' & Q' & L' & Bc' & Oc' & F' & Len & Pm); auto.
      { eapply deqv_wf; eauto. }
      { unfold d1. cbn [mk layers]. now rewrite <- !app_assoc. }
      { clear - F ShR Oc. induction ShR as [|y y' ? ? [By Oy] ? IH]; constructor; inversion F; subst; auto. lia. }
      { replace (off cap') with (off cap + ncod x - ndom x); [auto|]. lia. }
      exists pre', cap'', R'', d'. conjs; auto.
      * rewrite <- E'. rewrite app_length. cbn [List.length]. f_equal.
        -- f_equal. unfold box. lia.
        -- f_equal; [f_equal; lia|]. rewrite map_app. f_equal.
           ++ rewrite map_seq_bump by (unfold box; lia). f_equal; lia.
           ++ rewrite map_pos_above by lia. f_equal. unfold box. lia.
      * apply (deqv_trans Q Q').
      * congruence.
      * rewrite Len, app_length. cbn. lia.
      * etransitivity; [|exact Pm]. unfold boxes, d1. cbn [mk layers]. rewrite L, !map_app. cbn [map]. rewrite !map_app. cbn [map].
        rewrite Bx. rewrite Bc. replace (map l_box R') with (map l_box R).
        2:{ clear - ShR. induction ShR as [|? ? ? ? [By _] ? IH]; cbn; congruence. }
        apply Permutation_app_head.
        change (l_box cap :: map l_box R ++ l_box x :: map l_box (map snd M) ++ map l_box tl) with
          ((l_box cap :: map l_box R) ++ l_box x :: map l_box (map snd M) ++ map l_box tl).
        symmetry. apply Permutation_middle.
    + cbn [pos Bool.eqb].
      destruct (IH (R ++ [x]) pre cap tl d (off cap) j') as (pre' & cap'' & R'' & d' & E' & Q' & L' & Bc' & Oc' & F' & Len & Pm); auto.
      { rewrite L. cbn. now rewrite <- !app_assoc. }
      { apply Forall_app; auto. }
      exists pre', cap'', R'', d'. rewrite app_length in *. cbn [List.length] in *. conjs; auto; try lia.
      rewrite <- E'. f_equal.
      * f_equal; lia.
      * f_equal. rewrite seq_app, <- app_assoc. cbn. do 2 f_equal. f_equal. lia.
Qed.

Lemma interchange_one_down d pre x0 x1 post left d' : layers d = pre ++ x0 :: x1 :: post ->
  interchange_adj left d (List.length pre) = Ok d' ->
  interchange d (Z.of_nat (List.length pre)) (Z.of_nat (List.length pre + 1)) left = Ok d'.
Proof.
  intros L E. rewrite interchange_down by (try rewrite L, app_length; cbn; lia).
  replace (List.length pre + 1 - List.length pre) with 1 by lia. cbn. rewrite Nat.add_0_r, E. reflexivity.
Qed.
Lemma interchange_one_up d pre x0 x1 post left d' : layers d = pre ++ x0 :: x1 :: post ->
  interchange_adj left d (List.length pre) = Ok d' ->
  interchange d (Z.of_nat (List.length pre + 1)) (Z.of_nat (List.length pre)) left = Ok d'.
Proof.
  intros L E. rewrite interchange_up by (try rewrite L, app_length; cbn; lia).
  replace (List.length pre + 1 - List.length pre) with 1 by lia. cbn.
  replace (List.length pre + 1 - 0 - 1) with (List.length pre) by lia. rewrite E. reflexivity.
Qed.
Lemma swap_boxes d pre x0 x1 y0 y1 post : layers d = pre ++ x0 :: x1 :: post -> l_box y0 = l_box x1 -> l_box y1 = l_box x0 ->
  Permutation (boxes d) (boxes (mk d (pre ++ y0 :: y1 :: post))).
Proof.
  intros L A B. unfold boxes. cbn [mk layers]. rewrite L, !map_app. cbn. rewrite A, B. apply Permutation_app_head. constructor.
Qed.

Definition ph2l := (fun '(d, cup) box =>
            do d' <- interchange d (Z.of_nat box) (Z.of_nat cup) false;
            Ok (d', Nat.pred cup)).

Lemma phase2_left R : forall pre cup post d, wf d -> layers d = pre ++ R ++ cup :: post ->
  Forall (fun y => off cup + ndom cup <= off y) R ->
  exists cup' post' d',
    foldM ph2l (rev (seq (List.length pre) (List.length R))) (d, List.length pre + List.length R)
      = Ok (d', List.length pre) /\
    deqv d d' /\ layers d' = pre ++ cup' :: post' /\ l_box cup' = l_box cup /\ off cup' = off cup /\
    Permutation (boxes d) (boxes d').
Proof.
  induction R as [|y R IH] using rev_ind; intros pre cup post d W L F.
  - exists cup, post, d. cbn. rewrite Nat.add_0_r. conjs; auto. now apply deqv_refl.
  - apply Forall_app in F. destruct F as [F Fy]. inversion Fy; subst.
    rewrite <- app_assoc in L. cbn [app] in L. rewrite app_assoc in L.
    destruct (adj_right W L ltac:(auto)) as (c1 & y1 & E & Bc & Oc & Sy).
    assert (Q := interchange_adj_deqv W E).
    rewrite app_length. cbn [List.length]. rewrite Nat.add_1_r, seq_S, rev_app_distr. cbn [rev app foldM].
    unfold ph2l at 1.
    pose proof (interchange_one_down L E) as E1. rewrite app_length in E1.
    replace (List.length pre + S (List.length R)) with (List.length pre + List.length R + 1) by lia.
    rewrite E1. cbn [bind]. replace (Nat.pred (List.length pre + List.length R + 1)) with (List.length pre + List.length R) by lia.
    destruct (IH pre c1 (y1 :: post) (mk d ((pre ++ R) ++ c1 :: y1 :: post))) as (cup' & post' & d' & E' & Q' & L' & B' & O' & P').
    { eapply deqv_wf; eauto. }
    { cbn [mk layers]. now rewrite <- app_assoc. }
    { rewrite Oc, (ndom_box Bc). auto. }
    exists cup', post', d'. conjs; auto; try congruence.
    + apply (deqv_trans Q Q').
    + etransitivity; [|exact P']. eapply swap_boxes; eauto. apply Sy.
Qed.

(** ** Phase 1, right snake *)
Lemma pos_app f k M N : pos f k (M ++ N) = pos f k M ++ pos f (k + List.length M) N.
Proof.
  revert k; induction M as [|[g x] M IH]; intro k; cbn; [now rewrite Nat.add_0_r|].
  rewrite IH, Nat.add_succ_r. destruct (Bool.eqb g f); reflexivity.
Qed.
Lemma map_pos_below f k M b : k + List.length M <= b + 1 -> map (fun r => if b <? r then Nat.pred r else r) (pos f k M) = pos f k M.
Proof.
  revert k; induction M as [|[g x] M IH]; intros k L; cbn [pos map List.length] in *; auto.
  destruct (Bool.eqb g f); cbn [map]; rewrite ?IH by lia; auto. destruct (Nat.ltb_spec b k); [lia|]. reflexivity.
Qed.
Lemma map_seq_drop (a n b : nat) : b < a -> map (fun r => if b <? r then Nat.pred r else r) (seq a n) = seq (Nat.pred a) n.
Proof.
  revert a; induction n as [|n IH]; intros a L; cbn [seq map]; auto. rewrite IH by lia.
  destruct (Nat.ltb_spec b a); [|lia]. destruct a; [lia|]. reflexivity.
Qed.
Lemma fstrand_snoc j M f x j' : fstrand j (M ++ [(f, x)]) j' -> exists j1, fstrand j M j1 /\
  if f then off x + ndom x <= j1 /\ j' = j1 + ncod x - ndom x else j1 < off x /\ j' = j1.
Proof.
  revert j; induction M as [|[g y] M IH]; intros j S; cbn in S.
  - exists j. split; [constructor|]. inversion S as [|? ? ? ? G S'|? ? ? ? G S']; subst; inversion S'; subst; auto.
  - inversion S as [|? ? ? ? G S'|? ? ? ? G S']; subst; destruct (IH _ S') as (j1 & S1 & H); exists j1; split; auto; constructor; auto.
Qed.

Definition ph1r := (fun '(d, cup, ro) box =>
            do d' <- interchange d (Z.of_nat box) (Z.of_nat cup) false;
            Ok (d', Nat.pred cup, map (fun r => if box <? r then Nat.pred r else r) ro)).

Lemma phase1_right M : forall R pre cup post d j j', wf d ->
  layers d = pre ++ map snd M ++ R ++ cup :: post -> off cup = j' -> 0 < ndom cup -> Forall (fun y => j' < off y) R ->
  fstrand j M j' ->
  exists cup' R' post' d',
    foldM ph1r (rev (pos true (List.length pre) M))
       (d, List.length pre + List.length M + List.length R,
        pos false (List.length pre) M ++ seq (List.length pre + List.length M) (List.length R))
    = Ok (d', List.length pre + List.length R', seq (List.length pre) (List.length R')) /\
    deqv d d' /\ layers d' = pre ++ R' ++ cup' :: post' /\ l_box cup' = l_box cup /\ off cup' = j /\
    Forall (fun y => j < off y) R' /\
    Permutation (boxes d) (boxes d').
Proof.
  induction M as [|[f x] M IH] using rev_ind; intros R pre cup post d j j' W L O N F S.
  - inversion S; subst. exists cup, R, post, d. cbn. rewrite Nat.add_0_r. conjs; auto. now apply deqv_refl.
  - destruct (fstrand_snoc S) as (j1 & S1 & G). rewrite !pos_app, !app_length, !map_app in *. cbn [List.length map snd] in *.
    rewrite <- app_assoc in L. cbn [app] in L. destruct f.
    + destruct G as [G ->]. cbn [pos Bool.eqb]. rewrite rev_app_distr, app_nil_r. cbn [rev app foldM].
      set (box := List.length pre + List.length M).
      assert (ML := @move_down (R ++ [cup]) (pre ++ map snd M) x post d W).
      destruct ML as (x' & X' & E & Bx & Ox & Sh).
      { rewrite L. now rewrite <- !app_assoc. }
      { apply Forall_app. split.
        - eapply Forall_impl; [|exact F]. cbn. intros; lia.
        - constructor; auto. split; lia. }
      rewrite !app_length, map_length in E. cbn [List.length] in E. fold box in E.
      set (cupi := List.length pre + (List.length M + 1) + List.length R).
      assert (Lb : cupi < List.length (layers d)).
      { rewrite L, !app_length, map_length. cbn [List.length]. rewrite app_length. cbn. unfold cupi. lia. }
      assert (Lc : box < cupi) by (unfold cupi, box; lia).
      unfold ph1r at 1. rewrite interchange_down by assumption.
      match goal with |- context [seq 0 (cupi - ?b)] => change b with box end.
      match goal with |- context [interchange_adj false _ (?b + _)] => change b with box end.
      replace (cupi - box) with (List.length R + 1) by (unfold box, cupi; lia).
      rewrite E. cbn [bind].
      apply Forall2_app_inv_l in Sh. destruct Sh as (R' & CU & ShR & ShC & ->).
      inversion ShC as [|? cup' ? ? [Bc Oc] Sn]; subst. inversion Sn; subst.
      set (d1 := mk d ((pre ++ map snd M) ++ (R' ++ [cup']) ++ x' :: post)) in *.
      assert (Q : deqv d d1).
      { eapply (@move_down_boxes false (List.length R + 1) d box); auto. }
      assert (LR : List.length R' = List.length R) by (clear - ShR; induction ShR; cbn; congruence).
      destruct (IH R' pre cup' (x' :: post) d1 j j1) as (cup'' & R'' & post' & d' & E' & Q' & L' & Bc' & Oc' & F' & Pm); auto.
      { eapply deqv_wf; eauto. }
      { unfold d1. cbn [mk layers]. now rewrite <- !app_assoc. }
      { lia. }
      { now rewrite (ndom_box Bc). }
      { clear - F ShR Oc G O. induction ShR as [|y y' ? ? [By Oy] ? IH]; constructor; inversion F; subst; auto. lia. }
      exists cup'', R'', post', d'. conjs; auto.
      * rewrite <- E'. f_equal. f_equal; [f_equal|].
        -- unfold cupi. lia.
        -- rewrite map_app. f_equal.
           ++ rewrite map_pos_below by (unfold box; lia). reflexivity.
           ++ rewrite map_seq_drop by (unfold box; lia). f_equal; lia.
      * apply (deqv_trans Q Q').
      * congruence.
      * etransitivity; [|exact Pm]. unfold boxes, d1. cbn [mk layers]. rewrite L, !map_app. cbn [map]. rewrite !map_app. cbn [map].
        rewrite Bx, Bc. replace (map l_box R') with (map l_box R).
        2:{ clear - ShR. induction ShR as [|? ? ? ? [By _] ? IH]; cbn; congruence. }
        rewrite <- !app_assoc. do 2 apply Permutation_app_head.
        cbn [app]. change (l_box cup :: l_box x :: map l_box post) with ([l_box cup] ++ l_box x :: map l_box post).
        rewrite app_assoc. etransitivity; [|apply Permutation_middle]. now rewrite <- app_assoc.
    + destruct G as [G ->]. cbn [pos Bool.eqb]. rewrite app_nil_r.
      destruct (IH (x :: R) pre cup post d j j1) as (cup'' & R'' & post' & d' & E' & Q' & L' & Bc' & Oc' & F' & Pm); auto.
      exists cup'', R'', post', d'. conjs; auto.
      rewrite <- E'. f_equal. f_equal; [f_equal|].
      * cbn. lia.
      * rewrite <- app_assoc. cbn. do 3 f_equal. lia.
Qed.

Definition ph2r := (fun '(d, cap) box =>
            do d' <- interchange d (Z.of_nat box) (Z.of_nat cap) false;
            Ok (d', S cap)).
Lemma phase2_right R : forall pre cap tl d, wf d -> layers d = pre ++ cap :: R ++ tl -> 
  Forall (fun y => off cap + ncod cap <= off y /\ off cap < off y) R ->
  exists pre' cap' d',
    foldM ph2r (seq (List.length pre + 1) (List.length R)) (d, List.length pre)
      = Ok (d', List.length pre') /\ List.length pre' = List.length pre + List.length R /\
    deqv d d' /\ layers d' = pre' ++ cap' :: tl /\ l_box cap' = l_box cap /\ off cap' = off cap /\
    Permutation (boxes d) (boxes d').
Proof.
  induction R as [|y R IH]; intros pre cap tl d W L F.
  - exists pre, cap, d. cbn. conjs; auto. now apply deqv_refl.
  - inversion F as [|? ? [F1 F2] F3]; subst. cbn [app] in L.
    destruct (adj_left W L F1 ltac:(lia)) as (y1 & c1 & E & Bc & Oc & Sy).
    assert (Q := interchange_adj_deqv W E).
    cbn [List.length seq foldM]. unfold ph2r at 1. rewrite (interchange_one_up L E). cbn [bind].
    destruct (IH (pre ++ [y1]) c1 tl (mk d (pre ++ y1 :: c1 :: R ++ tl))) as (pre' & cap' & d' & E' & Ln & Q' & L' & B' & O' & P').
    { eapply deqv_wf; eauto. }
    { cbn [mk layers]. now rewrite <- app_assoc. }
    { rewrite Oc, (ncod_box Bc). auto. }
    rewrite app_length in *. cbn [List.length] in *.
    exists pre', cap', d'. conjs; auto; try congruence; try lia.
    + rewrite <- E'. f_equal; f_equal; lia.
    + apply (deqv_trans Q Q').
    + etransitivity; [|exact P']. eapply swap_boxes; eauto. apply Sy.
Qed.
