From Coq Require Import QArith Qround Qabs Lqa.
From Verif Require Import PyBase OptModel.
Set Implicit Arguments. Unset Strict Implicit.
Local Open Scope Q_scope.

Ltac qb :=
  repeat match goal with
  | H : Qle_bool _ _ = true |- _ => apply Qle_bool_iff in H
  | H : Qle_bool ?a ?b = false |- _ =>
      let H' := fresh "QN" in assert (H' : ~ (a <= b)) by (rewrite <- Qle_bool_iff; congruence); clear H
  | H : Qeq_bool _ _ = true |- _ => apply Qeq_bool_iff in H
  | H : Qeq_bool ?a ?b = false |- _ => apply Qeq_bool_neq in H
  end.

Lemma map2_nth A B C (f : A -> B -> C) l : forall m i,
  nth_error (map2 f l m) i = match nth_error l i, nth_error m i with Some x, Some y => Some (f x y) | _, _ => None end.
Proof.
  induction l as [|x l IH]; intros [|y m] [|i]; cbn; auto.
  all: destruct (nth_error l i); auto.
Qed.
Lemma map2_length A B C (f : A -> B -> C) l m : List.length (map2 f l m) = Nat.min (List.length l) (List.length m).
Proof. revert m; induction l; intros [|]; cbn; auto. Qed.

(** ** clipping *)
Lemma qclip_in lo hi x : lo <= hi -> lo <= qclip lo hi x <= hi.
Proof. unfold qclip, qmin, qmax. destruct (Qle_bool x lo) eqn:A; [destruct (Qle_bool lo hi) eqn:B|destruct (Qle_bool x hi) eqn:B]; qb; lra. Qed.
Lemma qclip_id lo hi x : lo <= x <= hi -> qclip lo hi x == x.
Proof. unfold qclip, qmin, qmax. destruct (Qle_bool x lo) eqn:A; [destruct (Qle_bool lo hi) eqn:B|destruct (Qle_bool x hi) eqn:B]; qb; lra. Qed.
Lemma qclip_apart lo hi x e : lo < hi -> lo <= x <= hi -> ~ e == 0 -> ~ qclip lo hi (x + e) - qclip lo hi (x - e) == 0.
Proof.
  intros. destruct (Qlt_le_dec 0 e) as [|E]; [|assert (e < 0) by (apply Qle_lteq in E; destruct E; auto; contradiction)].
  all: unfold qclip, qmin, qmax;
   destruct (Qle_bool (x + e) lo) eqn:A; [destruct (Qle_bool lo hi) eqn:B|destruct (Qle_bool (x + e) hi) eqn:B];
   (destruct (Qle_bool (x - e) lo) eqn:A'; [destruct (Qle_bool lo hi) eqn:B'|destruct (Qle_bool (x - e) hi) eqn:B']); qb; lra.
Qed.

Lemma qclip_eq lo hi x y : x == y -> qclip lo hi x == qclip lo hi y.
Proof.
  intro E. unfold qclip, qmin, qmax. assert (A : forall u v w, u == v -> Qle_bool u w = Qle_bool v w).
  { intros u v w H. destruct (Qle_bool u w) eqn:B1, (Qle_bool v w) eqn:B2; auto; qb; lra. }
  rewrite (A x y lo E). destruct (Qle_bool y lo); [reflexivity|]. rewrite (A x y hi E). destruct (Qle_bool y hi); [exact E|reflexivity].
Qed.

(** ** specification vocabulary *)
Definition finite (w : list num) : Prop := Forall (fun x => exists q, x = Fin q) w.
(** finite and inside the (component-wise) bounds *)
Definition within (b : bounds) (w : list num) : Prop :=
  finite w /\ match b with None => True | Some bs => Forall2 (fun x lh => exists q, x = Fin q /\ fst lh <= q <= snd lh) w bs end.
(** one interval per weight, lower end strictly below the upper one *)
Definition proper (b : bounds) (w : list num) : Prop :=
  match b with None => True | Some bs => List.length bs = List.length w /\ Forall (fun lh => fst lh < snd lh) bs end.
Definition num_eq (a b : num) : Prop :=
  match a, b with Fin x, Fin y => x == y | PInf, PInf | NInf, NInf => True | _, _ => False end.
Definition zero_grads (g : list num) : Prop := Forall (fun x => num_eq x (Fin 0)) g.

Lemma map2_finite A (f : num -> A -> num) l : forall m, (forall q y, In y m -> exists r, f (Fin q) y = Fin r) -> finite l -> finite (map2 f l m).
Proof.
  induction l; intros m H F; cbn; [constructor|]. destruct m; [constructor|]. inversion F as [|? ? [q ->] F']; subst.
  constructor; [apply H; cbn; auto|]. apply IHl; auto. intros. apply H. cbn. auto.
Qed.
Lemma project_within b l : (match b with None => True | Some bs => List.length bs = List.length l /\ Forall (fun lh => fst lh < snd lh) bs end) -> finite l -> within b (spsa_project b l).
Proof.
  intros P F. unfold within, spsa_project. destruct b as [bs|]; [|split; auto]. destruct P as [L P]. revert bs L P.
  induction F as [|x l [q ->] F IH]; intros [|[lo hi] bs] L P; cbn in *; try discriminate; [split; constructor|].
  inversion P; subst. destruct (IH bs ltac:(lia) H2) as [I1 I2]. cbn in *. split; constructor; auto; [eexists; reflexivity|].
  exists (qclip lo hi q). split; auto. cbn. apply qclip_in. lra.
Qed.

Section Spsa.
  Variable pow : Q -> Q -> Q.
  Variable loss : list num -> res Q.

  Lemma shift_finite_raw (w : list num) c s delta : finite w -> finite (map2 (fun x d => num_add x (Fin (s * (c * d)))) w delta).
  Proof. apply map2_finite. intros. cbn. eauto. Qed.
  Lemma shift_within o s delta : within (bds o) (weights o) -> proper (bds o) (weights o) -> List.length delta = List.length (weights o) ->
    within (bds o) (shift o s delta).
  Proof.
    intros [F _] P L. unfold shift. apply project_within; [|now apply shift_finite_raw].
    unfold proper in P. destruct (bds o); auto. rewrite map2_length, L, Nat.min_id. auto.
  Qed.

  (** ** backward *)
  Lemma backward_restores o mask delta l o' pts : spsa_backward loss o mask delta = (Ok l, o', pts) ->
    weights o' = weights o /\ ak o' = ak o /\ ck o' = ck o /\ sweep o' = sweep o /\ bds o' = bds o /\
    exists l0 l1, pts = [shift o 1 delta; shift o (-1) delta] /\ loss (shift o 1 delta) = Ok l0 /\ loss (shift o (-1) delta) = Ok l1 /\ l = (l0 + l1) / 2.
  Proof.
    unfold spsa_backward. destruct (loss (shift o 1 delta)) as [l0|] eqn:E0; [|discriminate].
    destruct (loss (shift o (-1) delta)) as [l1|] eqn:E1; [|discriminate]. intros [= <- <- <-]. cbn. repeat split. exists l0, l1. auto.
  Qed.
  Lemma backward_points o mask delta r o' pts : spsa_backward loss o mask delta = (r, o', pts) ->
    within (bds o) (weights o) -> proper (bds o) (weights o) -> List.length delta = List.length (weights o) ->
    Forall (within (bds o)) pts.
  Proof.
    intros H W P L. assert (forall s, within (bds o) (shift o s delta)) by (intro; now apply shift_within).
    unfold spsa_backward in H. destruct (loss (shift o 1 delta)); [destruct (loss (shift o (-1) delta))|]; injection H as _ _ <-; auto.
  Qed.

  Lemma grad_entry o mask delta l o' pts i : spsa_backward loss o mask delta = (Ok l, o', pts) ->
    exists l0 l1, nth_error (gradient o') i =
      match nth_error (gradient o) i, nth_error delta i, nth_error (shift o 1 delta) i, nth_error (shift o (-1) delta) i, nth_error mask i with
      | Some g, Some d, Some xp, Some xm, Some m => Some (num_add g (num_scale (b2q m) (grad_at o l0 l1 d xp xm)))
      | _, _, _, _, _ => None end.
  Proof.
    unfold spsa_backward. destruct (loss (shift o 1 delta)) as [l0|] eqn:E0; [|discriminate].
    destruct (loss (shift o (-1) delta)) as [l1|] eqn:E1; [|discriminate]. intros [= <- <- <-]. cbn. exists l0, l1.
    rewrite !map2_nth. destruct (nth_error (gradient o) i); auto. destruct (nth_error delta i); auto.
    assert (C : forall (a b : list num), nth_error (combine a b) i = match nth_error a i, nth_error b i with Some x, Some y => Some (x, y) | _, _ => None end).
    { clear. induction i; intros [|] [|]; cbn; auto. now destruct (nth_error l i). }
    rewrite C. destruct (nth_error (shift o 1 delta) i); auto. destruct (nth_error (shift o (-1) delta) i); auto. now destruct (nth_error mask i).
  Qed.

  Lemma shift_at o s delta i x d : nth_error (weights o) i = Some (Fin x) -> nth_error delta i = Some d ->
    nth_error (shift o s delta) i =
      match bds o with None => Some (Fin (x + s * (ck o * d))) | Some bs => match nth_error bs i with Some lh => Some (Fin (qclip (fst lh) (snd lh) (x + s * (ck o * d)))) | None => None end end.
  Proof.
    intros Hx Hd. unfold shift, spsa_project. destruct (bds o) as [bs|]; rewrite ?map2_nth, Hx, Hd; cbn; auto.
  Qed.

  Lemma masked_gradient o mask delta l o' pts i g : spsa_backward loss o mask delta = (Ok l, o', pts) ->
    within (bds o) (weights o) -> proper (bds o) (weights o) -> List.length delta = List.length (weights o) -> List.length mask = List.length (weights o) ->
    ~ ck o == 0 -> Forall (fun d => ~ d == 0) delta -> nth_error mask i = Some false -> nth_error (gradient o) i = Some (Fin g) ->
    exists g', nth_error (gradient o') i = Some (Fin g') /\ g' == g.
  Proof.
    intros H [F W] P LD LM CK DZ M G. destruct (grad_entry i H) as (l0 & l1 & E). rewrite E, G, M.
    assert (Li : (i < List.length (weights o))%nat) by (rewrite <- LM; apply nth_error_Some; congruence).
    destruct (nth_error (weights o) i) as [wx|] eqn:Ew; [|apply nth_error_None in Ew; lia].
    destruct (nth_error delta i) as [d|] eqn:Ed; [|apply nth_error_None in Ed; lia].
    assert (exists x, wx = Fin x) as [x ->] by (unfold finite in F; rewrite Forall_forall in F; apply F; eapply nth_error_In; eauto).
    assert (Dd : ~ d == 0) by (rewrite Forall_forall in DZ; apply DZ; eapply nth_error_In; eauto).
    rewrite !(shift_at _ Ew Ed). unfold grad_at. unfold proper in P. destruct (bds o) as [bs|].
    - destruct P as [LB PB]. destruct (nth_error bs i) as [[lo hi]|] eqn:Eb; [|apply nth_error_None in Eb; lia].
      cbn [num_add num_scale fst snd].
      assert (B1 : lo < hi) by (rewrite Forall_forall in PB; apply (PB (lo, hi)); eapply nth_error_In; eauto).
      assert (B2 : lo <= x <= hi).
      { clear -W Ew Eb. revert i Ew Eb. induction W as [|y lh l m (q & -> & Hq)]; intros [|i] Ew Eb; cbn in *; try discriminate; eauto.
        injection Ew as <-. injection Eb as ->. exact Hq. }
      assert (E0 : ~ ck o * d == 0) by (intro Z; apply Qmult_integral in Z; tauto).
      pose proof (qclip_apart B1 B2 E0) as AP.
      unfold num_div. destruct (Qeq_bool _ 0) eqn:EZ.
      + exfalso. qb. apply AP.
        assert (X1 : qclip lo hi (x + 1 * (ck o * d)) == qclip lo hi (x + ck o * d)) by (apply qclip_eq; ring).
        assert (X2 : qclip lo hi (x + -1 * (ck o * d)) == qclip lo hi (x - ck o * d)) by (apply qclip_eq; ring).
        rewrite <- X1, <- X2. rewrite <- EZ. ring.
      + cbn [num_scale num_add b2q]. eexists. split; [reflexivity|]. ring.
    - unfold num_div. destruct (Qeq_bool _ 0) eqn:EZ.
      + exfalso. qb. apply Qmult_integral in EZ. destruct EZ as [EZ|]; [|tauto]. apply Qmult_integral in EZ. destruct EZ; [discriminate|tauto].
      + cbn [num_scale num_add b2q]. eexists. split; [reflexivity|]. ring.
  Qed.

  (** ** step *)
  Lemma step_counters o : sweep (spsa_step pow o) = sweep o + 1 /\ bds (spsa_step pow o) = bds o /\
    ak (spsa_step pow o) = hyper_a o / pow (sweep o + 1 + A_ o) alpha /\ ck (spsa_step pow o) = hyper_c o / pow (sweep o + 1) gamma.
  Proof. cbn. auto. Qed.
  Lemma step_within o : finite (weights o) -> finite (gradient o) -> List.length (gradient o) = List.length (weights o) -> proper (bds o) (weights o) ->
    within (bds o) (weights (spsa_step pow o)) /\ zero_grads (gradient (spsa_step pow o)).
  Proof.
    intros F G L P. cbn. split.
    - apply project_within.
      + unfold proper in P. destruct (bds o); auto. rewrite map2_length, L, Nat.min_id. auto.
      + apply map2_finite; auto. intros q y I. unfold finite in G. rewrite Forall_forall in G. destruct (G y I) as [r ->]. cbn. eauto.
    - unfold zero_grads. apply Forall_map. unfold finite in G. eapply Forall_impl; [|exact G]. intros a [q ->]. cbn. ring.
  Qed.
  Lemma step_unchanged o i g : within (bds o) (weights o) -> List.length (gradient o) = List.length (weights o) ->
    nth_error (gradient o) i = Some (Fin g) -> g == 0 -> 
    match nth_error (weights o) i, nth_error (weights (spsa_step pow o)) i with Some a, Some b => num_eq a b | _, _ => False end.
  Proof.
    intros [F W] L G G0. assert (Li : (i < List.length (weights o))%nat) by (rewrite <- L; apply nth_error_Some; congruence).
    destruct (nth_error (weights o) i) as [wx|] eqn:Ew; [|apply nth_error_None in Ew; lia].
    assert (exists x, wx = Fin x) as [x ->] by (unfold finite in F; rewrite Forall_forall in F; apply F; eapply nth_error_In; eauto).
    cbn. unfold spsa_project. destruct (bds o) as [bs|].
    - assert (exists lo hi, nth_error bs i = Some (lo, hi) /\ lo <= x <= hi) as (lo & hi & Eb & B).
      { clear -W Ew. revert i Ew. induction W as [|y [lo hi] l m (q & -> & Hq)]; intros [|i] Ew; cbn in *; try discriminate; eauto.
        injection Ew as <-. eauto. }
      rewrite !map2_nth, Ew, G, Eb. cbn. symmetry. eapply Qeq_trans; [|exact (qclip_id B)].
      apply qclip_eq. rewrite G0. ring.
    - rewrite !map2_nth, Ew, G. cbn. rewrite G0. ring.
  Qed.

  (** backward then step from a zero gradient: absent parameters keep their weights *)
  Lemma backward_step_masked o mask delta l o' pts i : spsa_backward loss o mask delta = (Ok l, o', pts) ->
    within (bds o) (weights o) -> proper (bds o) (weights o) -> List.length delta = List.length (weights o) -> List.length mask = List.length (weights o) ->
    List.length (gradient o) = List.length (weights o) -> zero_grads (gradient o) ->
    ~ ck o == 0 -> Forall (fun d => ~ d == 0) delta -> nth_error mask i = Some false ->
    match nth_error (weights o) i, nth_error (weights (spsa_step pow o')) i with Some a, Some b => num_eq a b | _, _ => False end.
  Proof.
    intros H W P LD LM LG Z CK DZ M. destruct (backward_restores H) as (E1 & E2 & E3 & E4 & E5 & _).
    assert (Li : (i < List.length (weights o))%nat) by (rewrite <- LM; apply nth_error_Some; congruence).
    destruct (nth_error (gradient o) i) as [g|] eqn:Eg; [|apply nth_error_None in Eg; lia].
    assert (exists q, g = Fin q /\ q == 0) as (q & -> & Q0).
    { unfold zero_grads in Z. rewrite Forall_forall in Z. specialize (Z g (nth_error_In _ _ Eg)). destruct g; cbn in Z; try contradiction. eauto. }
    destruct (masked_gradient H W P LD LM CK DZ M Eg) as (g' & G' & Eqg). rewrite <- E1.
    apply (@step_unchanged o' i g'); [now rewrite E1, E5| |exact G'|lra].
    rewrite E1. clear -H LG LD LM P W. unfold spsa_backward in H. destruct (loss (shift o 1 delta)); [|discriminate]. destruct (loss (shift o (-1) delta)); [|discriminate].
    injection H as _ <- _. cbn.
    assert (LS : forall s, List.length (shift o s delta) = List.length (weights o)).
    { intro s. unfold shift, spsa_project. unfold proper in P. destruct (bds o); rewrite ?map2_length; lia. }
    rewrite !map2_length, combine_length, !LS. lia.
  Qed.

  (** ** C57 *)
  Fixpoint gains (n : nat) (o : spsa) : list (Q * Q) :=
    match n with O => [] | S n => (ak o, ck o) :: gains n (spsa_update pow o) end.
  Lemma gains_eq n : forall o o', hyper_a o = hyper_a o' -> hyper_c o = hyper_c o' -> A_ o = A_ o' -> ak o = ak o' -> ck o = ck o' -> sweep o = sweep o' ->
    gains n o = gains n o'.
  Proof.
    induction n; intros o o' H1 H2 H3 H4 H5 H6; cbn; auto. rewrite H4, H5. f_equal. apply IHn; cbn; auto; now rewrite ?H1, ?H2, ?H3, ?H6.
  Qed.
  Lemma gains_resume n o o' : hyper_a o = hyper_a o' -> hyper_c o = hyper_c o' -> gains n (spsa_load o' (spsa_save o)) = gains n o.
  Proof. intros. apply gains_eq; cbn; auto. Qed.
  (** the closed form of the schedule of a new optimiser *)
  Fixpoint sweep_at (k : nat) : Q := match k with O => 1 | S k => sweep_at k + 1 end.
  Lemma gains_closed w a c A b o : spsa_new pow w a c A b = Ok o -> forall n k, nth_error (gains n o) k =
    if (k <? n)%nat then Some (a / pow (sweep_at k + A) alpha, c / pow (sweep_at k) gamma) else None.
  Proof.
    intro H. assert (I : hyper_a o = a /\ hyper_c o = c /\ A_ o = A /\ sweep o = sweep_at 0 /\ ak o = a / pow (sweep_at 0 + A) alpha /\ ck o = c / pow (sweep_at 0) gamma).
    { unfold spsa_new in H. destruct b; [destruct (negb _); [discriminate|]|]; injection H as <-; cbn; auto 10. }
    clear H. intros n. generalize 0%nat as j. assert (G : forall n j o, hyper_a o = a /\ hyper_c o = c /\ A_ o = A /\ sweep o = sweep_at j /\ ak o = a / pow (sweep_at j + A) alpha /\ ck o = c / pow (sweep_at j) gamma ->
      forall k, nth_error (gains n o) k = if (k <? n)%nat then Some (a / pow (sweep_at (j + k) + A) alpha, c / pow (sweep_at (j + k)) gamma) else None).
    { clear. induction n; intros j o (I1 & I2 & I3 & I4 & I5 & I6) k; [destruct k; reflexivity|]. cbn [gains]. destruct k.
      - cbn. rewrite I5, I6, Nat.add_0_r. reflexivity.
      - cbn [nth_error]. rewrite (IHn (S j)).
        + replace (j + S k)%nat with (S j + k)%nat by lia. reflexivity.
        + cbn. rewrite I1, I2, I3, I4. auto 10. }
    intros _ k. apply (G n 0%nat o I k).
  Qed.
End Spsa.

(** ** Rotosolve *)
Lemma upd_length A (l : list A) i v : List.length (upd l i v) = List.length l.
Proof. revert i; induction l; intros [|]; cbn; auto. Qed.
Lemma upd_nth A (l : list A) i v j : nth_error (upd l i v) j = if (j =? i)%nat then (if (i <? List.length l)%nat then Some v else None) else nth_error l j.
Proof.
  revert i j; induction l as [|x l IH]; intros [|i] [|j]; cbn; auto.
  - destruct (j =? i)%nat; auto.
  - rewrite IH. cbn. destruct (Nat.eqb_spec j i); auto.
Qed.
Lemma upd_upd A (l : list A) i v w : upd (upd l i v) i w = upd l i w.
Proof. revert i; induction l; intros [|]; cbn; congruence. Qed.

Lemma roto_project_range x : 0 <= roto_project x < 1.
Proof.
  unfold roto_project. pose proof (Qfloor_le (Qabs x)). pose proof (Qlt_floor (Qabs x)). rewrite inject_Z_plus in *. change (inject_Z 1) with 1 in *. lra.
Qed.
Lemma roto_project_mod x : 0 <= x -> exists n : Z, roto_project x == x + inject_Z n.
Proof. intro H. exists (- Qfloor (Qabs x))%Z. unfold roto_project. rewrite inject_Z_opp. rewrite (Qabs_pos x) at 1 by auto. lra. Qed.
Lemma roto_project_neg x : x <= 0 -> exists n : Z, roto_project x == - x + inject_Z n.
Proof. intro H. exists (- Qfloor (Qabs x))%Z. unfold roto_project. rewrite inject_Z_opp. rewrite (Qabs_neg x) at 1 by auto. lra. Qed.

Section Roto.
  Variable turn : Q -> Q -> Q.
  Variable loss : list Q -> Q.
  Notation coord := (roto_coord turn loss).
  (** analytic minimiser of coordinate i as computed from three losses *)
  Definition target (w : list Q) (i : nat) : Q :=
    let phi := nth i w 0 in
    let mp := loss (upd w i (phi + (1 # 4))) in let mm := loss (upd w i (phi - (1 # 4))) in
    phi - (1 # 4) - turn (2 * loss w - mp - mm) (mp - mm).
  Lemma coord_eq w i : coord w i = upd w i (roto_project (target w i)).
  Proof. unfold roto_coord, target. cbn zeta. now rewrite !upd_upd. Qed.
  Lemma coord_loop n : forall w k, exists ws, List.length ws = S n /\ nth_error ws 0 = Some w /\
    nth_error ws n = Some (fold_left coord (seq k n) w) /\
    forall i a b, nth_error ws i = Some a -> nth_error ws (S i) = Some b -> b = upd a (k + i) (roto_project (target a (k + i))).
  Proof.
    induction n; intros w k.
    - exists [w]. cbn. repeat split; auto. intros [|[|i]] a b; cbn; congruence.
    - destruct (IHn (coord w k) (S k)) as (ws & L & H0 & Hn & St). exists (w :: ws). cbn [List.length]. split; [lia|]. split; auto. split; [exact Hn|].
      intros [|i] a b Ha Hb.
      + cbn in Ha. injection Ha as <-. change (nth_error ws 0 = Some b) in Hb. rewrite H0 in Hb. injection Hb as <-. rewrite Nat.add_0_r. apply coord_eq.
      + cbn in Ha, Hb. specialize (St i a b Ha Hb). replace (k + S i)%nat with (S k + i)%nat by lia. exact St.
  Qed.
  Lemma coord_loop_range n : forall w k, (k + n = List.length w)%nat -> (forall j x, (j < k)%nat -> nth_error w j = Some x -> 0 <= x < 1) ->
    Forall (fun x => 0 <= x < 1) (fold_left coord (seq k n) w) /\ List.length (fold_left coord (seq k n) w) = List.length w.
  Proof.
    induction n; intros w k L H; cbn [seq fold_left].
    - split; auto. apply Forall_forall. intros x I. apply In_nth_error in I. destruct I as [j I]. apply (H j); auto.
      assert (j < List.length w)%nat by (apply nth_error_Some; congruence). lia.
    - rewrite coord_eq. destruct (IHn (upd w k (roto_project (target w k))) (S k)) as [A B].
      + rewrite upd_length. lia.
      + intros j x Hj Hx. rewrite upd_nth in Hx. destruct (Nat.eqb_spec j k).
        * rewrite (proj2 (Nat.ltb_lt k _)) in Hx by lia. injection Hx as <-. apply roto_project_range.
        * apply (H j); auto. lia.
      + split; auto. rewrite B. apply upd_length.
  Qed.
End Roto.

(** ** combined statements *)
Lemma batch_mask_spec symbols free mask : batch_mask symbols free = Ok mask ->
  List.length mask = List.length symbols /\
  forall i s, nth_error symbols i = Some s ->
    nth_error mask i = Some true <-> (List.concat free = [] \/ In s (List.concat free)).
Proof.
  unfold batch_mask. destruct free as [|f0 fs]; [discriminate|]. intros [= <-]. rewrite map_length. split; auto.
  intros i s Hs. rewrite (map_nth_error _ _ _ Hs). change (List.concat (f0 :: fs)) with (f0 ++ List.concat fs). destruct (f0 ++ List.concat fs) as [|c0 cc] eqn:C.
  - split; [intros _; now left|]. intros _. f_equal. apply existsb_exists. exists s. split; [eapply nth_error_In; eauto|apply String.eqb_refl].
  - split.
    + intros [= E]. right. change (existsb (String.eqb s) (c0 :: cc) = true) in E. apply existsb_exists in E. destruct E as (x & I & Ex). apply String.eqb_eq in Ex. now subst x.
    + intros [E|I]; [discriminate|]. f_equal. apply existsb_exists. exists s. split; auto. apply String.eqb_refl.
Qed.

Lemma backward_restores_pts loss o mask delta l o' pts :
  spsa_backward loss o mask delta = (Ok l, o', pts) ->
  within (bds o) (weights o) -> proper (bds o) (weights o) -> List.length delta = List.length (weights o) ->
  weights o' = weights o /\ sweep o' = sweep o /\ Forall (within (bds o)) pts /\
  exists p q lp lq, pts = [p; q] /\ loss p = Ok lp /\ loss q = Ok lq /\ l = (lp + lq) / 2.
Proof.
  intros H W P L. destruct (backward_restores H) as (A & _ & _ & B & _ & l0 & l1 & C & D & E & F). split; auto. split; auto.
  split; [eapply backward_points; eauto|]. exists (shift o 1 delta), (shift o (-1) delta), l0, l1. auto.
Qed.


Lemma backward_grad_finite loss o mask delta l o' pts :
  spsa_backward loss o mask delta = (Ok l, o', pts) ->
  within (bds o) (weights o) -> proper (bds o) (weights o) -> List.length delta = List.length (weights o) ->
  List.length mask = List.length (weights o) -> List.length (gradient o) = List.length (weights o) ->
  finite (gradient o) -> ~ ck o == 0 -> Forall (fun d => ~ d == 0) delta ->
  finite (gradient o') /\ List.length (gradient o') = List.length (weights o).
Proof.
  intros H [F W] P LD LM LG FG CK DZ. split.
  - apply Forall_forall. intros y Iy. apply In_nth_error in Iy. destruct Iy as [i Hy].
    destruct (grad_entry i H) as (l0 & l1 & E). rewrite E in Hy.
    destruct (nth_error (gradient o) i) as [g|] eqn:Eg; [|discriminate]. destruct (nth_error delta i) as [d|] eqn:Ed; [|discriminate].
    assert (Li : (i < List.length (weights o))%nat) by (rewrite <- LG; apply nth_error_Some; congruence).
    destruct (nth_error (weights o) i) as [wx|] eqn:Ew; [|apply nth_error_None in Ew; lia].
    assert (exists x, wx = Fin x) as [x ->] by (unfold finite in F; rewrite Forall_forall in F; apply F; eapply nth_error_In; eauto).
    assert (exists x, g = Fin x) as [gx ->] by (unfold finite in FG; rewrite Forall_forall in FG; apply FG; eapply nth_error_In; eauto).
    assert (Dd : ~ d == 0) by (rewrite Forall_forall in DZ; apply DZ; eapply nth_error_In; eauto).
    rewrite !(shift_at _ Ew Ed) in Hy. unfold grad_at in Hy. unfold proper in P. destruct (bds o) as [bs|].
    + destruct P as [LB PB]. destruct (nth_error bs i) as [[lo hi]|] eqn:Eb; [|apply nth_error_None in Eb; lia].
      cbn [num_add num_scale fst snd] in Hy.
      assert (B1 : lo < hi) by (rewrite Forall_forall in PB; apply (PB (lo, hi)); eapply nth_error_In; eauto).
      assert (B2 : lo <= x <= hi).
      { clear -W Ew Eb. revert i Ew Eb. induction W as [|y lh l m (q & -> & Hq)]; intros [|i] Ew Eb; cbn in *; try discriminate; eauto.
        injection Ew as <-. injection Eb as ->. exact Hq. }
      assert (E0 : ~ ck o * d == 0) by (intro Z; apply Qmult_integral in Z; tauto).
      pose proof (qclip_apart B1 B2 E0) as AP.
      destruct (nth_error mask i) as [mk|]; [|discriminate]. injection Hy as <-.
      unfold num_div. destruct (Qeq_bool _ 0) eqn:EZ; [|cbn; eauto]. exfalso. qb. apply AP.
      assert (X1 : qclip lo hi (x + 1 * (ck o * d)) == qclip lo hi (x + ck o * d)) by (apply qclip_eq; ring).
      assert (X2 : qclip lo hi (x + -1 * (ck o * d)) == qclip lo hi (x - ck o * d)) by (apply qclip_eq; ring).
      rewrite <- X1, <- X2. rewrite <- EZ. ring.
    + destruct (nth_error mask i) as [mk|]; [|discriminate]. injection Hy as <-.
      unfold num_div. destruct (Qeq_bool _ 0) eqn:EZ; [|cbn; eauto].
      exfalso. qb. apply Qmult_integral in EZ. destruct EZ as [EZ|]; [|tauto]. apply Qmult_integral in EZ. destruct EZ; [discriminate|tauto].
  - unfold spsa_backward in H. destruct (loss (shift o 1 delta)); [|discriminate]. destruct (loss (shift o (-1) delta)); [|discriminate].
    injection H as _ <- _. cbn.
    assert (LS : forall s, List.length (shift o s delta) = List.length (weights o)).
    { intro s. unfold shift, spsa_project. unfold proper in P. destruct (bds o); rewrite ?map2_length; lia. }
    rewrite !map2_length, combine_length, !LS. lia.
Qed.

Lemma backward_step_all pow loss o mask delta l o' pts :
  spsa_backward loss o mask delta = (Ok l, o', pts) ->
  within (bds o) (weights o) -> proper (bds o) (weights o) -> List.length delta = List.length (weights o) ->
  List.length mask = List.length (weights o) -> List.length (gradient o) = List.length (weights o) ->
  zero_grads (gradient o) -> ~ ck o == 0 -> Forall (fun d => ~ d == 0) delta ->
  within (bds o) (weights (spsa_step pow o')) /\ zero_grads (gradient (spsa_step pow o')) /\
  sweep (spsa_step pow o') = sweep o + 1 /\
  (forall i, nth_error mask i = Some false ->
     match nth_error (weights o) i, nth_error (weights (spsa_step pow o')) i with Some a, Some b => num_eq a b | _, _ => False end).
Proof.
  intros H W P LD LM LG Z CK DZ.
  assert (FG : finite (gradient o)).
  { eapply Forall_impl; [|exact Z]. intros [q| | |]; cbn; try contradiction. eauto. }
  destruct (backward_grad_finite H W P LD LM LG FG CK DZ) as [FG' LG'].
  destruct (backward_restores H) as (E1 & E2 & E3 & E4 & E5 & _).
  destruct (@step_within pow o') as [S1 S2]; [rewrite E1; apply W|exact FG'|congruence|rewrite E1, E5; exact P|].
  rewrite E5 in S1. split; auto. split; auto. split; [rewrite (proj1 (step_counters pow o')); now rewrite E4|].
  intros i M. eapply backward_step_masked; eauto.
Qed.

Lemma gains_schedule pow w a c A b o : spsa_new pow w a c A b = Ok o -> forall n k,
  (k < n)%nat -> nth_error (gains pow n o) k =
    Some (a / pow (sweep_at k + A) alpha, c / pow (sweep_at k) gamma) /\ sweep_at k == inject_Z (Z.of_nat k) + 1.
Proof.
  intros H n k L. rewrite (gains_closed H). apply Nat.ltb_lt in L. rewrite L. split; auto.
  clear. induction k; [reflexivity|]. cbn [sweep_at]. rewrite IHk, Nat2Z.inj_succ, <- Z.add_1_r, inject_Z_plus. reflexivity.
Qed.
Lemma gains_iter pow k : forall n o, gains pow n (Nat.iter k (spsa_update pow) o) = skipn k (gains pow (k + n) o).
Proof.
  induction k; intros n o; [reflexivity|]. cbn [Nat.add gains skipn]. rewrite <- IHk.
  f_equal. clear. induction k; [reflexivity|]. change (spsa_update pow (Nat.iter (S k) (spsa_update pow) o) = spsa_update pow (Nat.iter k (spsa_update pow) (spsa_update pow o))). now rewrite IHk.
Qed.
Lemma iter_hyper pow k o : hyper_a (Nat.iter k (spsa_update pow) o) = hyper_a o /\ hyper_c (Nat.iter k (spsa_update pow) o) = hyper_c o.
Proof. induction k; cbn; auto. Qed.
Lemma gains_resume_at pow w a c A b o o' k : spsa_new pow w a c A b = Ok o ->
  hyper_a o' = a -> hyper_c o' = c -> forall n,
  gains pow n (spsa_load o' (spsa_save (Nat.iter k (spsa_update pow) o))) = skipn k (gains pow (k + n) o).
Proof.
  intros H Ha Hc n. assert (I : hyper_a o = a /\ hyper_c o = c).
  { unfold spsa_new in H. destruct b; [destruct (negb _); [discriminate|]|]; injection H as <-; cbn; auto. }
  rewrite <- gains_iter. destruct (iter_hyper pow k o). apply gains_resume; destruct I; congruence.
Qed.

Lemma roto_sweep turn loss w : exists ws,
  List.length ws = S (List.length w) /\ nth_error ws 0 = Some w /\
  nth_error ws (List.length w) = Some (snd (roto_backward turn loss w)) /\
  fst (roto_backward turn loss w) = loss (snd (roto_backward turn loss w)) /\
  forall i a b, nth_error ws i = Some a -> nth_error ws (S i) = Some b ->
    nth_error b i = Some (roto_project (target turn loss a i)) /\ (forall j, j <> i -> nth_error b j = nth_error a j).
Proof.
  destruct (coord_loop turn loss (List.length w) w 0) as (ws & L & H0 & Hn & St). exists ws. repeat split; auto.
  - assert (LA : forall i a, nth_error ws i = Some a -> List.length a = List.length w).
    { induction i0; intros a0 Ha; [congruence|].
      assert (i0 < List.length ws)%nat by (assert (S i0 < List.length ws)%nat by (apply nth_error_Some; congruence); lia).
      destruct (nth_error ws i0) as [a1|] eqn:E1; [|apply nth_error_None in E1; lia].
      rewrite (St i0 a1 a0 E1 Ha), upd_length. eauto. }
    rewrite (St i a b H H1). cbn. rewrite upd_nth, Nat.eqb_refl. rewrite (LA i a H).
    assert (S i < List.length ws)%nat by (apply nth_error_Some; congruence). rewrite (proj2 (Nat.ltb_lt i _)) by lia. reflexivity.
  - intros j Hj. rewrite (St i a b H H1). cbn. rewrite upd_nth. now rewrite (proj2 (Nat.eqb_neq j i)).
Qed.
Lemma roto_range turn loss w :
  Forall (fun x => 0 <= x < 1) (snd (roto_backward turn loss w)) /\ List.length (snd (roto_backward turn loss w)) = List.length w.
Proof. apply coord_loop_range; auto. intros. lia. Qed.
