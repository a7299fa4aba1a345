(** Nested cups: sorting, no swaps, and the index bookkeeping of the last loop (C68, lemmas only). *)
From Coq Require Import Sorted.
From Verif Require Import PyBase PyFacts TyModel TyFacts DiagModel DiagSpec DiagFacts DiagMisc MiscModel TreeModel TreeSpec TdModel TdSpec.
Close Scope string_scope. Set Implicit Arguments. Unset Strict Implicit.

(** ** Sorting by distance *)
Definition gap_le (a b : morph) : Prop := (gap a <= gap b)%Z.
Lemma insert_gap_perm m l : Permutation (insert_gap m l) (m :: l).
Proof. induction l as [|x l IH]; [reflexivity|]. cbn. destruct (_ <? _)%Z; [reflexivity|]. rewrite IH. constructor. Qed.
Lemma insert_gap_sorted m l : StronglySorted gap_le l -> StronglySorted gap_le (insert_gap m l).
Proof.
  induction 1 as [|x l Sd IH F]; [repeat constructor|]. cbn. destruct (Z.ltb_spec (gap m) (gap x)) as [L|L].
  - constructor; [now constructor|]. constructor; [unfold gap_le; lia|]. eapply Forall_impl; [|exact F]. unfold gap_le. intros; lia.
  - constructor; [exact IH|]. rewrite Forall_forall in *. intros y Hy. apply (Permutation_in _ (insert_gap_perm m l)) in Hy. destruct Hy as [<- | Hy]; [unfold gap_le; lia | now apply F].
Qed.
Lemma sort_gap_ok l : StronglySorted gap_le (sort_gap l) /\ Permutation (sort_gap l) l.
Proof.
  unfold sort_gap. assert (G : forall l acc, StronglySorted gap_le acc -> StronglySorted gap_le (fold_left (fun acc m => insert_gap m acc) l acc) /\ Permutation (fold_left (fun acc m => insert_gap m acc) l acc) (l ++ acc)).
  { clear. induction l as [|m l IH]; intros acc Sd; [split; [exact Sd | reflexivity]|]. cbn [fold_left]. destruct (IH (insert_gap m acc) (insert_gap_sorted m Sd)) as [A B]. split; [exact A|]. rewrite B, insert_gap_perm. now rewrite <- Permutation_middle. }
  destruct (G l []) as [A B]; [constructor|]. rewrite app_nil_r in B. auto.
Qed.

(** ** Pairings *)
Notation pr := (nat * nat)%type.
(** disjoint pairs that do not cross, none over a free wire *)
Record nested (P : list pr) (free : list nat) : Prop := {
  n_lt : forall l r, In (l, r) P -> l < r;
  n_free : forall l r f, In (l, r) P -> In f free -> ~ (l < f < r);
  n_cross : forall l r l' r', In (l, r) P -> In (l', r') P -> ~ (l < l' /\ l' < r /\ r < r') }.
Definition cup_of (p : pr) : morph := (KCup, fst p, snd p).
Definition free_of (w : nat) : morph := (KFree, w, w).
Lemma no_swaps P free fp : nested P free -> with_swaps fp (map cup_of P ++ map free_of free) = Ok (map cup_of P ++ map free_of free).
Proof.
  intros H. unfold with_swaps. set (ms := map cup_of P ++ map free_of free). set (n := List.length ms).
  assert (One : forall i t l r, nth_error ms i = Some (t, l, r) -> (l < r /\ In (l, r) P \/ l = r /\ List.length P <= i)).
  { intros i t l r E. unfold ms in E. destruct (Nat.lt_ge_cases i (List.length P)) as [L | L].
    - rewrite nth_error_app1 in E by now rewrite map_length. rewrite nth_error_map in E. destruct (nth_error P i) as [[a b]|] eqn:Ep; [|discriminate]. injection E as <- <- <-. apply nth_error_In in Ep. left. split; [now apply (n_lt H) | exact Ep].
    - rewrite nth_error_app2 in E by now rewrite map_length. rewrite nth_error_map in E. destruct (nth_error free _) as [w|]; [|discriminate]. injection E as <- <- <-. auto. }
  assert (Fr : forall j t l, nth_error ms j = Some (t, l, l) -> In l free).
  { intros j t l E. destruct (One _ _ _ _ E) as [[X _] | [_ L]]; [lia|]. unfold ms in E. rewrite nth_error_app2 in E by now rewrite map_length. rewrite nth_error_map in E. destruct (nth_error free _) as [w|] eqn:Ew; [|discriminate]. injection E as _ <- _. now apply nth_error_In in Ew. }
  assert (In1 : forall i t l r, nth_error ms i = Some (t, l, r) -> forall js, (forall j, In j js -> i < j < n) -> foldM (sw_other fp) js (ms, l, r, []) = Ok (ms, l, r, [])).
  { intros i t l r Ei. induction js as [|j js IH]; intros Hj; [reflexivity|]. cbn [foldM]. assert (Lj := Hj j (or_introl eq_refl)). enough (X : sw_other fp (ms, l, r, []) j = Ok (ms, l, r, [])) by (rewrite X; cbn [bind]; apply IH; intros; apply Hj; now right).
    unfold sw_other. destruct (nth_error ms j) as [[[ot ol] or]|] eqn:Ej; [|apply nth_error_None in Ej; unfold n in Lj; lia]. destruct (One _ _ _ _ Ei) as [[Lr Ip] | [-> Li]].
    - destruct (Nat.eqb_spec ol or) as [<-|Ne].
      + destruct (Nat.ltb_spec l ol), (Nat.ltb_spec ol r); try reflexivity. exfalso. exact (n_free H Ip (Fr _ _ _ Ej) (conj H0 H1)).
      + destruct (One _ _ _ _ Ej) as [[Lo Io] | [E _]]; [|congruence]. assert (C1 := n_cross H Ip Io). assert (C2 := n_cross H Io Ip). destruct (Nat.ltb_spec ol l), (Nat.ltb_spec l or), (Nat.ltb_spec or r); cbn [andb]; try lia; destruct (Nat.ltb_spec l ol), (Nat.ltb_spec ol r), (Nat.ltb_spec r or); cbn [andb]; try lia; reflexivity.
    - assert (Ex : (ol =? or)%nat = true). { destruct (One _ _ _ _ Ej) as [[Lo Io] | [E _]]; [|now apply Nat.eqb_eq]. unfold ms in Ej. rewrite nth_error_app2 in Ej by (rewrite map_length; lia). rewrite nth_error_map in Ej. destruct (nth_error free _); [|discriminate]. injection Ej as _ <- <-. apply Nat.eqb_refl. }
      rewrite Ex. destruct (Nat.ltb_spec r ol), (Nat.ltb_spec ol r); try reflexivity. lia. }
  assert (Out : forall is out, (forall i, In i is -> i < n) -> foldM (sw_step fp n) is (ms, out) = Ok (ms, out ++ map (fun i => nth i ms (KFree, 0, 0)) is)).
  { induction is as [|i is IH]; intros out Hi; [cbn; now rewrite app_nil_r|]. cbn [foldM map]. unfold sw_step at 1. assert (Li := Hi i (or_introl eq_refl)). destruct (nth_error ms i) as [[[t l] r]|] eqn:Ei; [|apply nth_error_None in Ei; unfold n in Li; lia].
    rewrite (@In1 i t l r Ei) by (intros j Hj; apply in_seq in Hj; lia). cbn [bind app]. rewrite IH by (intros; apply Hi; now right). rewrite <- app_assoc. cbn [app]. refine (f_equal (fun z => Ok (ms, out ++ z :: _)) _). symmetry. exact (nth_error_nth _ _ (KFree, 0, 0) Ei). }
  rewrite Out by (intros i Hi; apply in_seq in Hi; lia). cbn [rmap snd app]. f_equal. unfold n. clear. induction ms as [|m ms IH]; [reflexivity|]. cbn [List.length seq map]. f_equal. rewrite <- seq_shift, map_map. exact IH.
Qed.
Lemma place_cups P free : place (map cup_of P ++ map free_of free) = map (fun p : pr => (KCup, Z.of_nat (fst p), Z.of_nat (snd p), Z.of_nat (fst p))) P.
Proof.
  unfold place. assert (E : filter (fun m => negb (is_free m)) (map cup_of P ++ map free_of free) = map cup_of P).
  { rewrite filter_app. assert (A : filter (fun m => negb (is_free m)) (map cup_of P) = map cup_of P) by (induction P as [|p P IH]; [reflexivity | cbn; now rewrite IH]). assert (B : filter (fun m => negb (is_free m)) (map free_of free) = []) by (induction free as [|p F IH]; [reflexivity | exact IH]). now rewrite A, B, app_nil_r. }
  rewrite E. rewrite map_app. generalize (map (fun m : morph => let '(_, l, _) := m in Z.of_nat l) (map free_of free)). clear E. intros rest. induction P as [|[a b] P IH]; [reflexivity|]. cbn [map app combine cup_of fst snd]. f_equal. exact IH.
Qed.

(** ** The last loop *)
Section Draw.
  Variables (typ : nat -> atom).
  Definition rank (R : list nat) (x : nat) : nat := List.length (filter (fun y => y <? x)%nat R).
  Definition cur (R : list nat) (p : pr) : placed := (KCup, Z.of_nat (rank R (fst p)), Z.of_nat (rank R (snd p)), Z.of_nat (rank R (fst p))).
  Lemma rank_app R R' x : rank (R ++ R') x = rank R x + rank R' x.
  Proof. unfold rank. now rewrite filter_app, app_length. Qed.
  Lemma rank_low R x : (forall y, In y R -> y < x) -> rank R x = List.length R.
  Proof. unfold rank. induction R as [|y R IH]; intros H; [reflexivity|]. cbn [filter]. destruct (Nat.ltb_spec y x); [cbn [List.length]; now rewrite IH by (intros; apply H; now right)|]. specialize (H y (or_introl eq_refl)). lia. Qed.
  Lemma rank_high R x : (forall y, In y R -> x <= y) -> rank R x = 0.
  Proof. unfold rank. induction R as [|y R IH]; intros H; [reflexivity|]. cbn [filter]. destruct (Nat.ltb_spec y x); [specialize (H y (or_introl eq_refl)); lia|]. apply IH. intros; apply H; now right. Qed.
  Lemma rank_lt R x y : StronglySorted lt R -> In x R -> x < y -> rank R x < rank R y.
  Proof.
    unfold rank. induction 1 as [|z R Sd IH F]; intros I L; [destruct I|]. cbn [filter]. destruct I as [-> | I].
    - destruct (Nat.ltb_spec x x); [lia|]. destruct (Nat.ltb_spec x y); [|lia]. cbn [List.length]. enough (rank R x = 0) by (unfold rank in *; lia). apply rank_high. intros w Hw. rewrite Forall_forall in F. specialize (F w Hw). lia.
    - rewrite Forall_forall in F. specialize (F x I). destruct (Nat.ltb_spec z x), (Nat.ltb_spec z y); cbn [List.length]; try lia. specialize (IH I L). lia.
  Qed.
  Lemma sorted_split (R1 R2 : list nat) l r : StronglySorted lt (R1 ++ l :: r :: R2) -> (forall x, In x R1 -> x < l) /\ l < r /\ (forall x, In x R2 -> r < x) /\ StronglySorted lt (R1 ++ R2).
  Proof.
    induction R1 as [|a R1 IH]; cbn [app]; intros Sd; inversion Sd as [|? ? Sd' F]; subst.
    - inversion Sd' as [|? ? Sd2 F2]; subst. rewrite Forall_forall in *. split; [intros x []|]. split; [apply F; now left|]. split; [exact F2 | exact Sd2].
    - destruct (IH Sd') as (A & B & C & D). rewrite Forall_forall in F. split; [intros x [-> | Hx]; [apply F; apply in_or_app; right; now left | now apply A]|]. split; [exact B|]. split; [exact C|]. constructor; [exact D|]. apply Forall_forall. intros x Hx. apply F. apply in_app_or in Hx. apply in_or_app. destruct Hx; [now left | right; right; now right].
  Qed.
  Lemma adjacent (R : list nat) l r : StronglySorted lt R -> In l R -> In r R -> l < r -> (forall x, In x R -> ~ (l < x < r)) -> exists R1 R2, R = R1 ++ l :: r :: R2.
  Proof.
    intros Sd Il Ir L H. apply in_split in Il. destruct Il as (R1 & R2 & ->). exists R1.
    assert (S2 : StronglySorted lt (l :: R2)). { clear -Sd. induction R1 as [|a R1 IH]; [exact Sd|]. inversion Sd; auto. }
    assert (I2 : In r R2). { apply in_app_or in Ir. destruct Ir as [Ir | [E | Ir]]; [|lia | exact Ir]. exfalso. clear -Sd Ir L. induction R1 as [|a R1 IH]; [destruct Ir|]. inversion Sd as [|? ? Sd' F]; subst. destruct Ir as [-> | Ir]; [|now apply IH]. rewrite Forall_forall in F. specialize (F l). assert (r < l) by (apply F; apply in_or_app; right; now left). lia. }
    destruct R2 as [|x R2]; [destruct I2|]. exists R2. inversion S2 as [|? ? S3 F]; subst. rewrite Forall_forall in F. destruct I2 as [-> | I2]; [reflexivity|]. exfalso. inversion S3 as [|? ? S4 F4]; subst. rewrite Forall_forall in F4. specialize (F4 r I2). apply (H x); [apply in_or_app; right; right; now left|]. split; [apply F; now left | exact F4].
  Qed.
  Lemma shift_ok R1 R2 l r l' r' : StronglySorted lt (R1 ++ l :: r :: R2) -> In l' (R1 ++ R2) -> In r' (R1 ++ R2) -> l' < r' ->
    shift (Z.of_nat (rank (R1 ++ l :: r :: R2) l)) (Z.of_nat (rank (R1 ++ l :: r :: R2) r)) (cur (R1 ++ l :: r :: R2) (l', r')) = cur (R1 ++ R2) (l', r').
  Proof.
    intros Sd Il Ir L. destruct (sorted_split Sd) as (A & B & C & D). set (R := R1 ++ l :: r :: R2) in *.
    assert (Rl : rank R l = List.length R1). { unfold R. rewrite rank_app, (rank_low A), (@rank_high (l :: r :: R2)); [lia|]. intros y [<- | [<- | Hy]]; [lia | lia|]. specialize (C y Hy). lia. }
    assert (Rr : rank R r = S (List.length R1)). { unfold R. rewrite rank_app, (@rank_low R1 r) by (intros y Hy; specialize (A y Hy); lia). change (l :: r :: R2) with ([l] ++ r :: R2). rewrite rank_app, (@rank_low [l] r) by (intros y [<- | []]; exact B). rewrite (@rank_high (r :: R2)); [cbn; lia|]. intros y [<- | Hy]; [lia|]. specialize (C y Hy). lia. }
    assert (Lo : forall x, In x R1 -> rank R x = rank (R1 ++ R2) x /\ rank R x < List.length R1).
    { intros x Hx. specialize (A x Hx) as Ax. unfold R. rewrite !rank_app. rewrite (@rank_high (l :: r :: R2)) by (intros y [<- | [<- | Hy]]; [lia | lia|]; specialize (C y Hy); lia). rewrite (@rank_high R2) by (intros y Hy; specialize (C y Hy); lia). split; [reflexivity|]. rewrite Nat.add_0_r. rewrite <- (rank_low A). apply rank_lt; auto. clear -Sd. unfold R in Sd. induction R1 as [|a R1 IH]; [constructor|]. inversion Sd as [|? ? Sd' F]; subst. constructor; [now apply IH|]. rewrite Forall_forall in *. intros y Hy. apply F. apply in_or_app. now left. }
    assert (Hi : forall x, In x R2 -> rank R x = 2 + rank (R1 ++ R2) x /\ S (List.length R1) < rank R x).
    { intros x Hx. specialize (C x Hx) as Cx. unfold R. change (l :: r :: R2) with ([l; r] ++ R2). rewrite !rank_app. rewrite (@rank_low [l; r] x) by (intros y [<- | [<- | []]]; lia). rewrite (@rank_low R1 x) by (intros y Hy; specialize (A y Hy); lia). cbn [List.length]. lia. }
    unfold cur. cbn [fst snd]. unfold shift. rewrite Rl, Rr. apply in_app_or in Il. apply in_app_or in Ir.
    destruct Il as [Il | Il]; [destruct (Lo _ Il) as [L1 L2] | destruct (Hi _ Il) as [L1 L2]]; (destruct Ir as [Ir | Ir]; [destruct (Lo _ Ir) as [L3 L4] | destruct (Hi _ Ir) as [L3 L4]]); try (specialize (A r' Ir); specialize (C l' Il); lia); rewrite L1, L3 in *.
    - destruct (Z.ltb_spec (Z.of_nat (S (List.length R1))) (Z.of_nat (rank (R1 ++ R2) r'))); [lia|]. rewrite andb_false_r. destruct (Z.ltb_spec (Z.of_nat (S (List.length R1))) (Z.of_nat (rank (R1 ++ R2) l'))); [lia|]. reflexivity.
    - rewrite (proj2 (Z.ltb_lt _ _)), (proj2 (Z.ltb_lt _ _)), (proj2 (Z.ltb_lt _ _)) by lia. cbn [andb]. repeat f_equal; lia.
    - destruct (Z.ltb_spec (Z.of_nat (2 + rank (R1 ++ R2) l')) (Z.of_nat (List.length R1))); [lia|]. cbn [andb]. rewrite (proj2 (Z.ltb_lt _ _)) by lia. cbn [andb]. assert (rank (R1 ++ R2) l' < rank (R1 ++ R2) r') by (apply rank_lt; auto; apply in_or_app; now right). rewrite (proj2 (Z.ltb_lt _ _)) by lia. repeat f_equal; lia.
  Qed.
  Definition flat (Q : list pr) : list nat := List.concat (map (fun p : pr => [fst p; snd p]) Q).
  Lemma flat_in Q x : In x (flat Q) <-> exists p, In p Q /\ (x = fst p \/ x = snd p).
  Proof.
    unfold flat. rewrite in_concat. split.
    - intros (l & Hl & Hx). apply in_map_iff in Hl. destruct Hl as (p & <- & Hp). exists p. split; [exact Hp|]. destruct Hx as [<- | [<- | []]]; auto.
    - intros (p & Hp & Hx). exists [fst p; snd p]. split; [apply in_map_iff; eauto|]. cbn. intuition.
  Qed.
  Definition closer (p q : pr) : Prop := snd p - fst p <= snd q - fst q.
  Lemma nested_tail p Q free : nested (p :: Q) free -> nested Q free.
  Proof. intros [A B C]. constructor; intros; [eapply A | eapply B | eapply C]; try (right; eassumption); auto. Qed.
  Lemma draw_ok Q free : forall R d, nested Q free -> StronglySorted closer Q -> StronglySorted lt R -> Permutation R (flat Q ++ free) -> (forall l r, In (l, r) Q -> typ l = rot_atom (-1) (typ r)) ->
    cod d = map typ R -> exists ls rem, draw (List.length Q) (map (cur R) Q) d = Ok (Diag (dom d) (map typ rem) (layers d ++ ls)) /\ chain (map typ R) ls (map typ rem) /\ All (fun x => box_ok (l_box x)) ls /\
      Forall (fun x => exists a b, l_box x = Cup a b false) ls /\ joins ls R = (Q, rem) /\ Permutation rem free /\ StronglySorted lt rem.
  Proof.
    induction Q as [|[l r] Q IH]; intros R d N Sq SR P T Cd.
    - exists [], R. cbn [List.length map draw flat List.concat app] in *. rewrite app_nil_r, <- Cd. split; [now destruct d|]. repeat split; cbn; auto.
    - assert (Lt := n_lt N (or_introl eq_refl)). inversion Sq as [|? ? Sq' Fq]; subst. assert (ND : NoDup (l :: r :: flat Q ++ free)). { apply (Permutation_NoDup P). clear -SR. induction SR as [|x R Sd IH F]; constructor; auto. intros I. rewrite Forall_forall in F. specialize (F x I). lia. }
      cbn [flat map List.concat fst snd app] in P. fold (flat Q) in P.
      assert (Il : In l R) by (apply (Permutation_in _ (Permutation_sym P)); now left). assert (Ir : In r R) by (apply (Permutation_in _ (Permutation_sym P)); right; now left).
      assert (Bt : forall x, In x R -> ~ (l < x < r)).
      { intros x Hx B. apply (Permutation_in _ P) in Hx. destruct Hx as [-> | [-> | Hx]]; [lia | lia|]. apply in_app_or in Hx. destruct Hx as [Hx | Hx]; [|exact (n_free N (or_introl eq_refl) Hx B)]. assert (Hx' := Hx). apply flat_in in Hx. destruct Hx as ([a b] & Hp & Ex). cbn [fst snd] in Ex.
        assert (Lab := n_lt N (or_intror Hp)). assert (C1 := n_cross N (or_introl eq_refl) (or_intror Hp)). assert (C2 := n_cross N (or_intror Hp) (or_introl eq_refl)). rewrite Forall_forall in Fq. assert (G := Fq _ Hp). unfold closer in G. cbn [fst snd] in G.
        assert (Nb : forall y, (y = a \/ y = b) -> y <> l /\ y <> r). { intros y Hy. assert (Iy : In y (flat Q)) by (apply flat_in; exists (a, b); auto). inversion ND as [|? ? N1 ND']; subst. inversion ND' as [|? ? N2 _]; subst. split; intros ->; [apply N1; right; apply in_or_app; now left | apply N2; apply in_or_app; now left]. }
        destruct (Nb a (or_introl eq_refl)), (Nb b (or_intror eq_refl)). destruct Ex as [-> | ->]; lia. }
      destruct (adjacent SR Il Ir Lt Bt) as (R1 & R2 & ->). destruct (sorted_split SR) as (A & _ & C & S').
      assert (P' : Permutation (R1 ++ R2) (flat Q ++ free)). { apply (Permutation_cons_inv (a := r)), (Permutation_cons_inv (a := l)). rewrite <- P. rewrite <- !Permutation_middle. apply perm_swap || (now rewrite perm_swap). }
      assert (Rl : rank (R1 ++ l :: r :: R2) l = List.length R1). { rewrite rank_app, (rank_low A), (@rank_high (l :: r :: R2)); [lia|]. intros y [<- | [<- | Hy]]; [lia | lia|]. specialize (C y Hy). lia. }
      assert (Rr : rank (R1 ++ l :: r :: R2) r = S (List.length R1)). { rewrite rank_app, (@rank_low R1 r) by (intros y Hy; specialize (A y Hy); lia). change (l :: r :: R2) with ([l] ++ r :: R2). rewrite rank_app, (@rank_low [l] r) by (intros y [<- | []]; exact Lt). rewrite (@rank_high (r :: R2)); [cbn; lia|]. intros y [<- | Hy]; [lia|]. specialize (C y Hy). lia. }
      assert (Sh : map (shift (Z.of_nat (List.length R1)) (Z.of_nat (S (List.length R1)))) (map (cur (R1 ++ l :: r :: R2)) Q) = map (cur (R1 ++ R2)) Q).
      { rewrite map_map. apply map_ext_in. intros [a b] Hp. rewrite <- Rl at 1. rewrite <- Rr. apply shift_ok; [exact SR | | | exact (n_lt N (or_intror Hp))]; apply (Permutation_in _ (Permutation_sym P')), in_or_app; left; apply flat_in; exists (a, b); auto. }
      assert (Ad := T l r (or_introl eq_refl)). set (x := to_diag (Cup (typ l) (typ r) false)). set (d1 := Diag (dom d) (map typ (R1 ++ R2)) (layers d ++ [(map typ R1, Cup (typ l) (typ r) false, map typ R2)])).
      destruct (IH (R1 ++ R2) d1 (nested_tail N) Sq' S' P') as (ls & rem & E & Ch & Bo & Cu & Jo & Pr & Sr); [intros a b Hp; apply T; now right | reflexivity|].
      exists ((map typ R1, Cup (typ l) (typ r) false, map typ R2) :: ls), rem. split; [|split; [|split; [|split; [|split]]]].
      + cbn [List.length map draw]. unfold cur at 1. cbn [fst snd]. rewrite Rl, Rr.
        assert (Lc : List.length (cod d) = List.length R1 + S (S (List.length R2))) by (rewrite Cd, map_length, app_length; reflexivity).
        rewrite (@py_slice_one (cod d) (List.length R1) (typ 0)) by lia. rewrite (@py_slice_one (cod d) (S (List.length R1)) (typ 0)) by lia.
        assert (E1 : nth (List.length R1) (cod d) (typ 0) = typ l) by (rewrite Cd, map_nth, app_nth2, Nat.sub_diag by lia; reflexivity).
        assert (E2 : nth (S (List.length R1)) (cod d) (typ 0) = typ r) by (rewrite Cd, map_nth, app_nth2 by lia; replace (S (List.length R1) - List.length R1) with 1 by lia; reflexivity). rewrite E1, E2.
        assert (Ec : cups [typ l] [typ r] false = Ok x). { unfold cups, mk_cup, cup_adjoint. assert (Er : rot (-1) [typ r] = [typ l]) by (rewrite Ad; reflexivity). rewrite Er, ty_eqb_refl. reflexivity. }
        rewrite Ec. cbn [bind]. assert (Et := @then_at_ok d x (map typ R1) (map typ R2) (Z.of_nat (List.length R1))). unfold then_at in Et. cbn [dom x to_diag b_dom b_end List.length] in Et. change (Z.of_nat 2) with 2%Z in Et. rewrite Et; [| rewrite Cd, map_app; reflexivity | now rewrite map_length]. cbn [bind].
        rewrite Sh. unfold d1 in E. cbn [dom layers] in E. cbn [cod layers x to_diag b_cod b_end app map l_extend]. rewrite app_nil_r, <- map_app. rewrite <- app_assoc in E. exact E.
      + cbn [chain l_dom l_cod b_dom b_cod b_end]. rewrite map_app in *. cbn [map app] in *. split; [reflexivity | exact Ch].
      + cbn [All l_box]. split; [|exact Bo]. cbn. rewrite Ad. reflexivity || auto.
      + constructor; [cbn; eauto | exact Cu].
      + cbn [joins]. rewrite map_length, skipn_app, skipn_all, Nat.sub_diag, firstn_app, firstn_all, Nat.sub_diag. cbn [skipn firstn app]. rewrite app_nil_r, Jo. reflexivity.
      + split; [exact Pr | exact Sr].
  Qed.
End Draw.
