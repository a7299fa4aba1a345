(** Wire routing: swaps, permutations, cups, caps, spiders (lemmas only). *)
From Coq Require Import Sorting.Sorted.
From Verif Require Import PyBase PyFacts TyModel TyFacts DiagModel DiagSpec DiagFacts DiagRot.
Set Implicit Arguments. Unset Strict Implicit.

Definition a0 : atom := (EmptyString, 0%Z).
Definition route (d : diagram) (t : ty) (L : list nat) : Prop :=
  wf d /\ dom d = t /\ cod d = map (fun i => nth i t a0) L /\
  forall X (dx : X) v, List.length v = List.length t -> run d v = Some (map (fun i => nth i v dx) L).

Lemma map_nth_seq X (dx : X) v : map (fun i => nth i v dx) (seq 0 (List.length v)) = v.
Proof.
  induction v as [|x v IH]; cbn; auto. rewrite <- seq_shift, map_map. cbn. now rewrite IH.
Qed.
Lemma route_id t : route (id t) t (seq 0 (List.length t)).
Proof.
  split; [apply wf_id|]. repeat split; cbn.
  - now rewrite map_nth_seq.
  - intros X dx v E. rewrite <- E. now rewrite map_nth_seq.
Qed.

Lemma run_layers_app X ls ks (v : list X) :
  run_layers (ls ++ ks) v = match run_layers ls v with Some v' => run_layers ks v' | None => None end.
Proof. revert v; induction ls as [|x ls IH]; intro v; cbn; auto. destruct (run_layer x v); auto. Qed.

Lemma route_swap d t A i j C a b k :
  route d t (A ++ i :: j :: C) -> a = nth i t a0 -> b = nth j t a0 -> k = Z.of_nat (List.length A) ->
  exists d', then_at d (to_diag (Swap a b)) k = Ok d' /\ route d' t (A ++ j :: i :: C).
Proof.
  intros (W & D & E & R) -> -> ->. rewrite map_app in E. cbn [map] in E.
  set (f := fun i => nth i t a0) in *.
  assert (H : then_at d (to_diag (Swap (f i) (f j))) (Z.of_nat (List.length A)) =
    Ok (Diag (dom d) (map f A ++ [f j; f i] ++ map f C)
             (layers d ++ [(map f A, Swap (f i) (f j), map f C)]))).
  { rewrite (@then_at_ok d (to_diag (Swap (f i) (f j))) (map f A) (map f C)).
    - cbn. now rewrite app_nil_r.
    - exact E.
    - now rewrite map_length. }
  eexists. split; [exact H|]. split; [|split; [exact D|split]].
  - eapply wf_then_at; [exact W| |exact H]. apply wf_to_diag. exact I.
  - cbn. now rewrite map_app.
  - intros X dx v Hv. unfold run. cbn [layers]. rewrite run_layers_app.
    change (run_layers (layers d) v) with (run d v). rewrite (R X dx v Hv). cbn.
    rewrite map_length, !map_app. cbn [map].
    rewrite firstn_app, skipn_app, !map_length, Nat.sub_diag, firstn_all2, skipn_all2
      by (rewrite map_length; lia).
    cbn. now rewrite app_nil_r.
Qed.

Lemma swap_step_eq d A a b C : cod d = A ++ a :: b :: C ->
  swap_step d (List.length A) = then_at d (to_diag (Swap a b)) (Z.of_nat (List.length A)).
Proof.
  intro E. unfold swap_step, then_at. rewrite E.
  rewrite py_slice_stop_pos, py_slice_start_pos by (cbn; lia).
  rewrite Nat2Z.id. rewrite skipn_app, skipn_all, Nat.sub_diag. cbn [skipn app firstn].
  f_equal. f_equal. f_equal. f_equal. cbn; lia.
Qed.

Lemma route_move t x : forall B A C d, route d t (A ++ B ++ x :: C) ->
  exists d', foldM swap_step (rev (seq (List.length A) (List.length B))) d = Ok d'
             /\ route d' t (A ++ x :: B ++ C).
Proof.
  induction B as [|b B IH] using rev_ind; intros A C d R; cbn in *; [eauto|].
  rewrite app_length, Nat.add_1_r, seq_S, rev_app_distr. cbn [rev app].
  rewrite <- app_assoc in R. cbn [app] in R. rewrite app_assoc in R.
  cbn [foldM]. rewrite <- app_length.
  pose proof R as (_ & _ & E & _). rewrite map_app in E. cbn [map] in E.
  rewrite <- (map_length (fun i => nth i t a0) (A ++ B)).
  erewrite swap_step_eq by exact E. rewrite map_length.
  destruct (route_swap R eq_refl eq_refl eq_refl) as (d1 & -> & R1). cbn [bind].
  rewrite <- app_assoc in R1. destruct (IH A (b :: C) d1 R1) as (d2 & H2 & R2).
  exists d2. split; [exact H2|]. now rewrite <- app_assoc.
Qed.

(** validity test *)
Lemma existsb_eqb x l : existsb (Nat.eqb x) l = true <-> In x l.
Proof.
  rewrite existsb_exists. split.
  - intros (y & H & E). apply Nat.eqb_eq in E. now subst.
  - intro H. exists x. split; auto. apply Nat.eqb_refl.
Qed.
Lemma perm_valid_spec p n : perm_valid p n = true <-> Permutation p (seq 0 n).
Proof.
  unfold perm_valid. rewrite !andb_true_iff, Nat.eqb_eq, !forallb_forall. split.
  - intros [[El Hin] Hall]. symmetry.
    assert (Hall' : incl (seq 0 n) p) by (intros x Hx; now apply existsb_eqb, Hall).
    apply NoDup_Permutation.
    + apply seq_NoDup.
    + eapply NoDup_incl_NoDup; [apply seq_NoDup| |exact Hall']. now rewrite seq_length, El.
    + intro x. split; [apply Hall'|]. intro Hx. now apply existsb_eqb, Hin.
  - intro P. repeat split.
    + now rewrite (Permutation_length P), seq_length.
    + intros x Hx. apply existsb_eqb. now rewrite <- P.
    + intros x Hx. apply existsb_eqb. now rewrite P.
Qed.

Lemma nth_error_bump k w i :
  nth_error (bump k w) i = if i <? k then option_map S (nth_error w i) else nth_error w i.
Proof.
  unfold bump. revert w i. induction k as [|k IH]; intros w i; [reflexivity|].
  destruct w as [|x w]; cbn [firstn skipn map app].
  - destruct i; [reflexivity|]. cbn [nth_error]. destruct (S i <? S k); reflexivity.
  - destruct i as [|i]; [reflexivity|]. cbn [nth_error]. rewrite IH. reflexivity.
Qed.

Definition perm_inv (t : ty) (p : list nat) (k : nat) (st : diagram * list nat) : Prop :=
  exists rem, route (fst st) t (firstn k p ++ rem) /\
    StronglySorted lt rem /\ Permutation (skipn k p) rem /\
    forall R1 i R2, rem = R1 ++ i :: R2 -> nth_error (snd st) i = Some (k + List.length R1).

Lemma sorted_app_cons (R1 R2 : list nat) x : StronglySorted lt (R1 ++ x :: R2) ->
  StronglySorted lt (R1 ++ R2) /\ (forall y, In y R1 -> y < x) /\ (forall y, In y R2 -> x < y).
Proof.
  induction R1 as [|a R1 IH]; cbn; intro H.
  - inversion H as [|? ? Hs Hf]; subst. repeat split; auto; [tauto|].
    intros y Hy. rewrite Forall_forall in Hf. auto.
  - inversion H as [|? ? Hs Hf]; subst. destruct (IH Hs) as (S1 & S2 & S3).
    rewrite Forall_forall in Hf. split; [|split].
    + constructor; auto. apply Forall_forall. intros y Hy. apply Hf.
      rewrite in_app_iff in *. cbn. tauto.
    + intros y [<-|Hy]; auto. apply Hf. rewrite in_app_iff. cbn. auto.
    + auto.
Qed.

Lemma skipn_nth_error A (l : list A) k x : nth_error l k = Some x -> skipn k l = x :: skipn (S k) l.
Proof.
  revert l; induction k as [|k IH]; intros [|y l] H; cbn in *; try discriminate.
  - now inversion H.
  - now apply IH.
Qed.
Lemma firstn_nth_error A (l : list A) k x : nth_error l k = Some x -> firstn (S k) l = firstn k l ++ [x].
Proof.
  revert l; induction k as [|k IH]; intros [|y l] H; cbn in *; try discriminate.
  - now inversion H.
  - now rewrite (IH _ H).
Qed.
Lemma app_mid_split A (R1 R2 S1 S2 : list A) i : R1 ++ R2 = S1 ++ i :: S2 ->
  (exists T, R1 = S1 ++ i :: T /\ S2 = T ++ R2) \/ (exists T, R2 = T ++ i :: S2 /\ S1 = R1 ++ T).
Proof.
  revert S1. induction R1 as [|a R1 IH]; intros S1 H; cbn in *; [eauto|].
  destruct S1 as [|b S1]; cbn in *; inversion H; subst; [left; eauto|].
  destruct (IH S1 H2) as [(T & -> & ->)|(T & -> & ->)]; eauto.
Qed.

Lemma perm_step_inv t p k st : Permutation p (seq 0 (List.length t)) -> k < List.length t ->
  perm_inv t p k st -> exists st', perm_step p st k = Ok st' /\ perm_inv t p (S k) st'.
Proof.
  destruct st as [d w]. intros P Hk (rem & R & S & Pr & W). cbn [fst snd] in *.
  assert (Lp : List.length p = List.length t) by now rewrite (Permutation_length P), seq_length.
  unfold perm_step. destruct (nth_error p k) as [po|] eqn:Epo.
  2:{ apply nth_error_None in Epo. lia. }
  rewrite (skipn_nth_error Epo) in Pr.
  assert (Hin : In po rem) by (rewrite <- Pr; now left).
  destruct (in_split _ _ Hin) as (R1 & R2 & ->).
  rewrite (W R1 po R2 eq_refl).
  destruct (Nat.ltb_spec (k + List.length R1) k); [lia|].
  replace (k + List.length R1 - k) with (List.length R1) by lia.
  assert (Lk : List.length (firstn k p) = k) by (rewrite firstn_length; lia).
  destruct (@route_move t po R1 (firstn k p) R2 d R) as (d' & E & R').
  rewrite Lk in E. rewrite E. cbn [bind]. eexists. split; [reflexivity|].
  apply sorted_app_cons in S as (S1 & S2 & S3).
  exists (R1 ++ R2). cbn [fst snd]. split; [|split; [exact S1|split]].
  - rewrite (firstn_nth_error Epo), <- app_assoc. exact R'.
  - eapply Permutation_cons_app_inv. exact Pr.
  - intros Q1 i Q2 EQ. rewrite nth_error_bump.
    destruct (app_mid_split EQ) as [(T & -> & ->)|(T & -> & ->)].
    + assert (i < po) by (apply S2; rewrite in_app_iff; cbn; auto).
      destruct (Nat.ltb_spec i po); [|lia].
      rewrite (W Q1 i (T ++ po :: R2)) by now rewrite <- app_assoc. cbn. f_equal; lia.
    + assert (po < i) by (apply S3; rewrite in_app_iff; cbn; auto).
      destruct (Nat.ltb_spec i po); [lia|].
      rewrite (W (R1 ++ po :: T) i Q2) by now rewrite <- app_assoc.
      rewrite !app_length. cbn. f_equal; lia.
Qed.

Lemma seq_sorted k n : StronglySorted lt (seq k n).
Proof.
  revert k; induction n as [|n IH]; intro k; cbn; constructor; auto.
  apply Forall_forall. intros x Hx. apply in_seq in Hx. lia.
Qed.

Lemma seq_mid k n R1 i R2 : seq k n = R1 ++ i :: R2 -> i = k + List.length R1.
Proof.
  revert k R1; induction n as [|n IH]; intros k R1 H; cbn in *; [destruct R1; discriminate|].
  destruct R1 as [|x R1]; cbn in *; inversion H; subst; [lia|].
  apply IH in H2. lia.
Qed.

Lemma perm_loop t p m k st : Permutation p (seq 0 (List.length t)) -> k + m <= List.length t ->
  perm_inv t p k st -> exists st', foldM (perm_step p) (seq k m) st = Ok st' /\ perm_inv t p (k + m) st'.
Proof.
  revert k st. induction m as [|m IH]; intros k st P Hk I; cbn [seq foldM].
  - exists st. now rewrite Nat.add_0_r.
  - destruct (@perm_step_inv t p k st P) as (st1 & -> & I1); [lia|auto|]. cbn [bind].
    destruct (IH (S k) st1 P) as (st2 & E & I2); [lia|auto|]. exists st2.
    now rewrite <- Nat.add_succ_comm.
Qed.

Lemma permutation_route t p : Permutation p (seq 0 (List.length t)) ->
  exists d, permutation t p = Ok d /\ route d t p.
Proof.
  intro P. unfold permutation. rewrite (proj2 (perm_valid_spec p _) P). cbn [negb].
  destruct (@perm_loop t p (List.length t - 1) 0 (id t, seq 0 (List.length t)) P) as (st & E & I).
  - lia.
  - exists (seq 0 (List.length t)). cbn [fst snd firstn skipn app]. split; [apply route_id|].
    split; [apply seq_sorted|]. split; [exact P|].
    intros R1 i R2 H. apply seq_mid in H as Hi.
    assert (Hlt : i < List.length t).
    { assert (In i (seq 0 (List.length t))) by (rewrite H, in_app_iff; cbn; auto).
      apply in_seq in H0. lia. }
    rewrite (nth_error_nth' _ 0) by now rewrite seq_length.
    rewrite seq_nth by auto. f_equal; lia.
  - rewrite E. cbn [rmap]. eexists. split; [reflexivity|].
    destruct I as (rem & R & S & Pr & W). cbn [Nat.add] in *.
    assert (Lp : List.length p = List.length t) by now rewrite (Permutation_length P), seq_length.
    assert (Hr : rem = skipn (List.length t - 1) p).
    { apply Permutation_length in Pr as Lr. rewrite skipn_length in Lr.
      destruct (skipn (List.length t - 1) p) as [|x [|y l]] eqn:Es.
      - apply Permutation_nil in Pr. now subst.
      - now apply Permutation_length_1_inv in Pr.
      - assert (List.length (x :: y :: l) <= 1) by (rewrite <- Es, skipn_length; lia). cbn in *; lia. }
    rewrite Hr, firstn_skipn in R. exact R.
Qed.

Lemma permutation_invalid t p : ~ Permutation p (seq 0 (List.length t)) -> permutation t p = Err ValueError.
Proof.
  intro H. unfold permutation. rewrite <- perm_valid_spec in H.
  apply not_true_is_false in H. now rewrite H.
Qed.

(** ** Block swap *)
Lemma enum_app A k (l m : list A) : enum k (l ++ m) = enum k l ++ enum (k + List.length l) m.
Proof.
  revert k; induction l as [|x l IH]; intro k; cbn; [now rewrite Nat.add_0_r|].
  rewrite IH. now rewrite Nat.add_succ_comm.
Qed.

Lemma route_move_at t x : forall B A C d, route d t (A ++ B ++ x :: C) ->
  exists d', foldM (fun d '(i, a) => then_at d (to_diag (Swap a (nth x t a0))) (Z.of_nat (List.length A + i)))
                   (rev (enum 0 (map (fun i => nth i t a0) B))) d = Ok d'
             /\ route d' t (A ++ x :: B ++ C).
Proof.
  induction B as [|b B IH] using rev_ind; intros A C d R; cbn in *; [eauto|].
  rewrite map_app, enum_app, rev_app_distr. cbn [map enum rev app foldM].
  rewrite <- app_assoc in R. cbn [app] in R. rewrite app_assoc in R.
  destruct (route_swap R eq_refl eq_refl eq_refl) as (d1 & E & R1).
  rewrite app_length in E. rewrite map_length. cbn [Nat.add]. rewrite E. cbn [bind].
  rewrite <- app_assoc in R1. destruct (IH A (b :: C) d1 R1) as (d2 & H2 & R2).
  exists d2. split; [exact H2|]. now rewrite <- app_assoc.
Qed.

Lemma seq_plus k n : seq k n = map (Nat.add k) (seq 0 n).
Proof.
  revert k; induction n as [|n IH]; intro k; cbn; auto. rewrite Nat.add_0_r. f_equal.
  rewrite (IH (S k)), <- seq_shift, map_map. apply map_ext. intro; lia.
Qed.
Lemma pick_right X (dx : X) u v n : n = List.length v ->
  map (fun i => nth i (u ++ v) dx) (seq (List.length u) n) = v.
Proof.
  intros ->. rewrite seq_plus, map_map. etransitivity; [|apply (map_nth_seq dx v)]. apply map_ext.
  intro i. apply app_nth2_plus.
Qed.
Lemma pick_left X (dx : X) u v n : n = List.length u -> map (fun i => nth i (u ++ v) dx) (seq 0 n) = u.
Proof.
  intros ->. etransitivity; [|apply (map_nth_seq dx u)]. apply map_ext_in. intros i Hi. apply in_seq in Hi.
  now rewrite app_nth1 by lia.
Qed.
Lemma nth_app_map (l r : ty) : map (fun i => nth i (l ++ r) a0) (seq 0 (List.length l)) = l.
Proof. now apply pick_left. Qed.

Lemma swap_loop left right : forall post pre d, right = pre ++ post ->
  route d (left ++ right) (seq (List.length left) (List.length pre) ++ seq 0 (List.length left)
                           ++ seq (List.length left + List.length pre) (List.length post)) ->
  exists d', foldM (fun d '(start, ob) =>
               foldM (fun d '(i, a) => then_at d (to_diag (Swap a ob)) (Z.of_nat (start + i)))
                     (rev (enum 0 left)) d) (enum (List.length pre) post) d = Ok d'
   /\ route d' (left ++ right) (seq (List.length left) (List.length right) ++ seq 0 (List.length left)).
Proof.
  induction post as [|ob post IH]; intros pre d E R; cbn [enum foldM].
  - exists d. split; auto. rewrite app_nil_r in E. subst pre. cbn in R. now rewrite app_nil_r in R.
  - cbn [List.length seq] in R.
    destruct (route_move_at R) as (d1 & E1 & R1).
    rewrite seq_length, nth_app_map in E1.
    assert (Eo : nth (List.length left + List.length pre) (left ++ right) a0 = ob).
    { rewrite app_nth2_plus, E. rewrite app_nth2, Nat.sub_diag by lia. reflexivity. }
    rewrite Eo in E1. rewrite E1. cbn [bind].
    specialize (IH (pre ++ [ob]) d1). rewrite app_length in IH. cbn [List.length] in IH.
    rewrite Nat.add_1_r in IH. apply IH.
    + now rewrite <- app_assoc.
    + rewrite seq_S, <- app_assoc, Nat.add_succ_r. exact R1.
Qed.

Lemma swap_route left right : exists d, swap left right = Ok d /\
  route d (left ++ right) (seq (List.length left) (List.length right) ++ seq 0 (List.length left)).
Proof.
  assert (G : exists d, foldM (fun d '(start, ob) =>
               foldM (fun d '(i, a) => then_at d (to_diag (Swap a ob)) (Z.of_nat (start + i)))
                     (rev (enum 0 left)) d) (enum 0 right) (id (left ++ right)) = Ok d
   /\ route d (left ++ right) (seq (List.length left) (List.length right) ++ seq 0 (List.length left))).
  { apply (@swap_loop left right right [] (id (left ++ right))); auto.
    cbn [List.length seq app]. rewrite Nat.add_0_r.
    replace (seq 0 (List.length left) ++ seq (List.length left) (List.length right))
      with (seq 0 (List.length (left ++ right))) by now rewrite app_length, seq_app.
    apply route_id. }
  destruct left as [|l [|l' left]]; [exact G| |exact G].
  destruct right as [|r [|r' right]]; [exact G| |exact G]. clear G.
  exists (to_diag (Swap l r)). split; [reflexivity|].
  split; [apply wf_to_diag; exact I|]. repeat split.
  intros X dx v Hv. destruct v as [|a [|b [|? ?]]]; try discriminate. reflexivity.
Qed.

Lemma swap_spec left right : exists d, swap left right = Ok d /\
  typed d (left ++ right) (right ++ left) /\
  forall X (u v : list X), List.length u = List.length left -> List.length v = List.length right ->
    run d (u ++ v) = Some (v ++ u).
Proof.
  destruct (swap_route left right) as (d & E & W & D & C & R). exists d. split; auto. split.
  - split; [exact W|split; [exact D|]]. rewrite C, map_app, pick_right, pick_left; auto.
  - intros X u v Hu Hv.
    destruct (u ++ v) as [|dx w] eqn:Euv.
    + apply app_eq_nil in Euv as [-> ->]. destruct left, right; try discriminate.
      cbn in E. inversion E; reflexivity.
    + rewrite <- Euv. rewrite (R X dx) by (rewrite !app_length; congruence).
      rewrite map_app. rewrite <- Hu, <- Hv, pick_right, pick_left; auto.
Qed.
