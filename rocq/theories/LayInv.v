(** Proofs about the layout of drawings: the invariant of the loop. *)
From Coq Require Import QArith Lqa Lia.
From Verif Require Import PyBase DiagModel GDiag GDiagSpec LayModel LaySpec LayFacts.
Close Scope string_scope. Set Implicit Arguments. Unset Strict Implicit.
Open Scope Q_scope.

Section Lay.
  Variables (A B : Type) (bd bc : B -> list A) (quantum : B -> bool).
  Notation drw := (drawable A B).
  Lemma map_x_id (g : drw) : map_x (fun x => x) g = g.
  Proof.
    destruct g as [bs es ws]. unfold map_x. cbn [dr_boxes dr_ends dr_wires]. f_equal.
    - rewrite <- (map_id bs) at 2. apply map_ext. intros []. reflexivity.
    - rewrite <- (map_id es) at 2. apply map_ext. intros []. reflexivity.
  Qed.
  Lemma map_x_comp f h (g : drw) : map_x h (map_x f g) = map_x (fun x => h (f x)) g.
  Proof. unfold map_x. cbn [dr_boxes dr_ends dr_wires]. rewrite !map_map. reflexivity. Qed.
  Lemma bxs_map f (g : drw) b : bounded g b -> bxs (map_x f g) (BN (bn_obj b) (f (bn_x b)) (bn_y b) (bn_dom b) (bn_cod b)) = map f (bxs g b).
  Proof.
    intro H. unfold bxs, legs, bounded, legs in *. cbn [bn_dom bn_cod bn_x]. destruct (bn_dom b ++ bn_cod b) as [|i l] eqn:E; [reflexivity|]. rewrite map_map. apply map_ext_in. intros j J. apply gx_map. apply H. exact J.
  Qed.
  Lemma removelast_length X (l : list X) : List.length (removelast l) = pred (List.length l).
  Proof. induction l as [|x l IH]; [reflexivity|]. cbn [removelast]. destruct l as [|y l]; [reflexivity|]. cbn [List.length pred] in *. lia. Qed.
  Lemma tl_length X (l : list X) : List.length (tl l) = pred (List.length l).
  Proof. destruct l; reflexivity. Qed.
  Definition hw (box : B) : Q := X_SPACING * (qnat (pred (List.length (bc box))) / 2 + 1).
  Lemma qnat_pos n : 0 <= qnat n.
  Proof. unfold qnat. change 0 with (inject_Z 0). rewrite <- Zle_Qle. lia. Qed.
  Lemma hw_ge box : 5 # 2 <= hw box.
  Proof. unfold hw. assert (H := @qnat_pos (pred (List.length (bc box)))). q. Qed.
  Lemma sp_map f (g : drw) l : grows f -> inside g l -> sp g l -> sp (map_x f g) l.
  Proof. intros F IN H i j L. rewrite !gx_map by (apply inside_nth; [exact IN|lia]). specialize (H i j L). assert (K := F (gx g (nth i l 0%nat)) (gx g (nth j l 0%nat))). lra. Qed.
  Lemma inside_map f (g : drw) l : inside g l -> inside (map_x f g) l.
  Proof. intros H i I. rewrite size_map. apply H. exact I. Qed.
  Lemma make_space_ok (g : drw) scan box off : scan <> [] -> inside g scan -> sp g scan -> (off + List.length (bd box) <= List.length scan)%nat -> (forall b, In b (dr_boxes g) -> bounded g b) ->
    exists f x y l r, make_space bd bc g scan box off = Ok (map_x f g, x, y) /\ grows f /\
      ((0 < off)%nat -> gx (map_x f g) (nth (off - 1) scan 0%nat) <= x - hw box) /\
      ((off + List.length (bd box) < List.length scan)%nat -> x + hw box <= gx (map_x f g) (nth (off + List.length (bd box)) scan 0%nat)) /\
      ((0 < List.length (bd box))%nat -> gx (map_x f g) (nth off scan 0%nat) + gx (map_x f g) (nth (off + List.length (bd box) - 1) scan 0%nat) == 2 * x) /\
      y <= 0 /\ (forall b, In b (dr_boxes (map_x f g)) -> y + 1 <= bn_y b \/ (forall z, In z (bxs (map_x f g) b) -> r < z - LEDGE) \/ (forall z, In z (bxs (map_x f g) b) -> z + LEDGE < l)) /\
      l <= x - LEDGE /\ x + LEDGE <= r /\
      ((0 < List.length (bd box))%nat -> l <= gx (map_x f g) (nth off scan 0%nat) - LEDGE /\ gx (map_x f g) (nth (off + List.length (bd box) - 1) scan 0%nat) + LEDGE <= r) /\
      ((0 < List.length (bc box))%nat -> l <= x - X_SPACING * qnat (pred (List.length (bc box))) / 2 - LEDGE /\ x + X_SPACING * (qnat (pred (List.length (bc box))) - qnat (pred (List.length (bc box))) / 2) + LEDGE <= r).
  Proof.
    intros NE IN SP LE BD. set (nd := List.length (bd box)) in *. assert (HW := @hw_ge box).
    assert (R : forall i, (i < List.length scan)%nat -> (nth i scan 0 < size g)%nat) by (intros; apply inside_nth; assumption).
    (* the centre *)
    assert (PX : exists x, match bd box with
                | [] => if (off =? 0)%nat then do i <- get scan 0; do a <- end_x g i; Ok (a - hw box)
                        else if (off =? List.length scan)%nat then do i <- get scan (List.length scan - 1); do a <- end_x g i; Ok (a + hw box)
                        else do i <- get scan (off + nd); do rgt <- end_x g i; do j <- get scan (off - 1); do a <- end_x g j; Ok ((a + rgt) / 2)
                | _ => do i <- get scan (off + nd - 1); do rgt <- end_x g i; do j <- get scan off; do a <- end_x g j; Ok ((a + rgt) / 2)
                end = Ok x /\ ((0 < nd)%nat -> gx g (nth off scan 0%nat) + gx g (nth (off + nd - 1) scan 0%nat) == 2 * x)).
    { assert (L0 : (0 < List.length scan)%nat) by (destruct scan; [congruence|cbn; lia]). unfold nd in *. destruct (bd box) as [|a t]; cbn [List.length] in *.
      - destruct (Nat.eqb_spec off 0).
        + rewrite (@get_ok _ scan 0 0%nat) by lia. cbn [bind]. rewrite end_x_ok by (apply R; lia). eexists. split; [reflexivity|]. lia.
        + destruct (Nat.eqb_spec off (List.length scan)).
          * rewrite (@get_ok _ scan (List.length scan - 1) 0%nat) by lia. cbn [bind]. rewrite end_x_ok by (apply R; lia). eexists. split; [reflexivity|]. lia.
          * rewrite (@get_ok _ scan (off + 0) 0%nat) by lia. cbn [bind]. rewrite end_x_ok by (apply R; lia). cbn [bind]. rewrite (@get_ok _ scan (off - 1) 0%nat) by lia. cbn [bind]. rewrite end_x_ok by (apply R; lia). eexists. split; [reflexivity|]. lia.
      - rewrite (@get_ok _ scan (off + S (List.length t) - 1) 0%nat) by lia. cbn [bind]. rewrite end_x_ok by (apply R; lia). cbn [bind]. rewrite (@get_ok _ scan off 0%nat) by lia. cbn [bind]. rewrite end_x_ok by (apply R; lia). eexists. split; [reflexivity|]. intros _. q. }
    destruct PX as (x & EX & CX).
    (* the left neighbours move to the left *)
    assert (PL : exists f, (if (off =? 0)%nat then Ok g
                 else do i <- get scan (off - 1); do limit <- end_x g i;
                      if qltb (x - hw box) limit
                      then let pad := limit - x + hw box in Ok (map_x (fun z => if Qle_bool z limit then z - pad else z) g)
                      else Ok g) = Ok (map_x f g) /\ grows f /\ ((0 < off)%nat -> f (gx g (nth (off - 1) scan 0%nat)) <= x - hw box /\ forall z, gx g (nth (off - 1) scan 0%nat) < z -> f z = z) /\ (off = 0%nat -> forall z, f z = z)).
    { destruct (Nat.eqb_spec off 0).
      - exists (fun z => z). rewrite map_x_id. split; [reflexivity|]. split; [exact grows_id|]. split; [lia|reflexivity].
      - rewrite (@get_ok _ scan (off - 1) 0%nat) by lia. cbn [bind]. rewrite end_x_ok by (apply R; lia). cbn [bind]. set (a := gx g (nth (off - 1) scan 0%nat)).
        destruct (qltb (x - hw box) a) eqn:E; [apply qltb_lt in E|apply qltb_ge in E].
        + eexists. split; [reflexivity|]. split; [apply grows_left; lra|]. split; [|lia]. intros _. split.
          * destruct (Qle_bool a a) eqn:E2; [lra|]. apply qle_gt in E2. lra.
          * intros z Hz. destruct (Qle_bool z a) eqn:E2; [|reflexivity]. apply Qle_bool_iff in E2. lra.
        + exists (fun z => z). rewrite map_x_id. split; [reflexivity|]. split; [exact grows_id|]. split; [|lia]. intros _. split; [exact E|reflexivity]. }
    destruct PL as (f & EL & GF & FL & F0). set (g1 := map_x f g) in *.
    assert (R1 : forall i, (i < List.length scan)%nat -> (nth i scan 0 < size g1)%nat) by (intros; unfold g1; rewrite size_map; auto).
    (* wires at or after [off] have not moved *)
    assert (FX : forall i, (off <= i < List.length scan)%nat -> gx g1 (nth i scan 0%nat) = gx g (nth i scan 0%nat)).
    { intros i L. unfold g1. rewrite gx_map by (apply R; lia). destruct (Nat.eq_dec off 0) as [->|N]; [apply F0; reflexivity|]. apply FL; [lia|]. assert (S := SP (off - 1)%nat i). assert (S' : gx g (nth (off - 1) scan 0%nat) + (5 # 2) <= gx g (nth i scan 0%nat)) by (apply S; lia). lra. }
    assert (PR : exists h, (if (off + nd <? List.length scan)%nat
                 then do i <- get scan (off + nd); do limit <- end_x g1 i;
                      if qltb limit (x + hw box)
                      then let pad := x + hw box - limit in Ok (map_x (fun z => if Qle_bool limit z then z + pad else z) g1)
                      else Ok g1
                 else Ok g1) = Ok (map_x h g1) /\ grows h /\ ((off + nd < List.length scan)%nat -> x + hw box <= h (gx g1 (nth (off + nd) scan 0%nat)) /\ forall z, z < gx g1 (nth (off + nd) scan 0%nat) -> h z = z) /\ ((off + nd = List.length scan)%nat -> forall z, h z = z)).
    { destruct (Nat.ltb_spec (off + nd) (List.length scan)) as [L|L].
      - rewrite (@get_ok _ scan (off + nd) 0%nat) by lia. cbn [bind]. rewrite end_x_ok by (apply R1; lia). cbn [bind]. set (a := gx g1 (nth (off + nd) scan 0%nat)).
        destruct (qltb a (x + hw box)) eqn:E; [apply qltb_lt in E|apply qltb_ge in E].
        + eexists. split; [reflexivity|]. split; [apply grows_right; lra|]. split; [|lia]. intros _. split.
          * destruct (Qle_bool a a) eqn:E2; [lra|]. apply qle_gt in E2. lra.
          * intros z Hz. destruct (Qle_bool a z) eqn:E2; [|reflexivity]. apply Qle_bool_iff in E2. lra.
        + exists (fun z => z). rewrite map_x_id. split; [reflexivity|]. split; [exact grows_id|]. split; [|lia]. intros _. split; [exact E|reflexivity].
      - exists (fun z => z). rewrite map_x_id. split; [reflexivity|]. split; [exact grows_id|]. split; [lia|reflexivity]. }
    destruct PR as (h & ER & GH & HR & H0). assert (SP1 : sp g1 scan) by (apply sp_map; assumption).
    set (g2 := map_x h g1) in *. assert (E2 : g2 = map_x (fun z => h (f z)) g) by (unfold g2, g1; apply map_x_comp).
    (* wires before the end of the box have not moved since *)
    assert (HX : forall i, (i < off + nd)%nat -> (i < List.length scan)%nat -> gx g2 (nth i scan 0%nat) = gx g1 (nth i scan 0%nat)).
    { intros i L L'. unfold g2. rewrite gx_map by (apply R1; lia). destruct (Nat.eq_dec (off + nd) (List.length scan)) as [E|N]; [apply H0; exact E|]. apply HR; [lia|].
      assert (S' : gx g1 (nth i scan 0%nat) + (5 # 2) <= gx g1 (nth (off + nd) scan 0%nat)) by (apply SP1; lia). lra. }
    assert (IN2 : inside g2 scan) by (unfold g2, g1; do 2 apply inside_map; exact IN).
    destruct (@edges_ok _ _ bd bc g2 box x off scan IN2 LE) as (l & r & EE & L1 & L2 & L3 & L4).
    assert (BD2 : forall b, In b (dr_boxes g2) -> bounded g2 b).
    { rewrite E2. intros b Hb. cbn [map_x dr_boxes] in Hb. apply in_map_iff in Hb. destruct Hb as (b0 & <- & Hb). intros i Hi. rewrite size_map. apply (BD b0 Hb). exact Hi. }
    destruct (@next_y_ok _ _ g2 l r BD2) as (y & EY & Y0 & YB).
    exists (fun z => h (f z)), x, y, l, r. rewrite <- E2. split.
    { unfold make_space. destruct scan as [|s0 scan0] eqn:Es; [congruence|]. rewrite <- Es in *. cbv zeta. rewrite removelast_length. fold (hw box). fold nd. cbv zeta in EL, ER. rewrite EX. cbn [bind]. rewrite EL. cbn [bind]. rewrite ER. cbn [bind]. rewrite EE. cbn [bind]. rewrite EY. reflexivity. }
    split; [exact (grows_trans GF GH)|]. split.
    { intro P. rewrite HX by lia. unfold g1. rewrite gx_map by (apply R; lia). apply FL. exact P. }
    split. { intro P. unfold g2. rewrite gx_map by (apply R1; lia). apply HR. exact P. }
    split. { intro P. rewrite !HX, !FX by lia. apply CX. exact P. }
    split; [exact Y0|]. split; [exact YB|]. split; [exact L1|]. split; [exact L2|]. split; [exact L3|]. rewrite tl_length in L4. exact L4.
  Qed.

  (** *** the invariant *)
  Definition out (g : drw) (x : Q) (b : box_node B) : Prop := (forall z, In z (bxs g b) -> x + LEDGE < z) \/ (forall z, In z (bxs g b) -> z + LEDGE < x).
  Definition apart (g : drw) (a b : box_node B) : Prop :=
    bn_y b + 1 <= bn_y a \/ (forall x z, In x (bxs g a) -> In z (bxs g b) -> x + 1 < z) \/ (forall x z, In x (bxs g a) -> In z (bxs g b) -> z + 1 < x).
  Record geo (good : Prop) (fol : bool) (g : drw) (scan : list nat) (hist : list (list nat)) (min_y : Q) : Prop := {
    i_cur : In scan hist;
    i_hist : forall s, In s hist -> inside g s /\ sp g s;
    i_box : forall b, In b (dr_boxes g) -> bounded g b;
    i_wire : forall s t, In (s, t) (dr_wires g) -> (s < size g)%nat /\ (t < size g)%nat /\ gx g s == gx g t /\ gy g t + (1 # 2) <= gy g s;
    i_src : forall i, In i scan -> gy g i == 1 \/ exists b, In b (dr_boxes g) /\ In i (bn_cod b);
    i_side : forall b, In b (dr_boxes g) -> (forall i, In i (bn_dom b) -> gy g i == bn_y b + (1 # 4)) /\ (forall i, In i (bn_cod b) -> gy g i == bn_y b - (1 # 4));
    i_tgt : forall s t, In (s, t) (dr_wires g) -> exists b, In b (dr_boxes g) /\ In t (bn_dom b);
    i_y : forall b, In b (dr_boxes g) -> bn_y b <= 0 /\ min_y <= bn_y b;
    i_min : min_y <= 1;
    i_fol : fol = true -> forall b, In b (dr_boxes g) -> 1 - qnat (List.length (dr_boxes g)) <= bn_y b;
    i_bb : good -> forall i j a b, (i < j)%nat -> nth_error (dr_boxes g) i = Some a -> nth_error (dr_boxes g) j = Some b -> apart g a b;
    i_wb : good -> forall s t b, In (s, t) (dr_wires g) -> In b (dr_boxes g) -> gy g s <= bn_y b - (1 # 4) \/ bn_y b + (1 # 4) <= gy g t \/ out g (gx g s) b;
    i_pb : good -> forall i b, In i scan -> In b (dr_boxes g) -> gy g i <= bn_y b - (1 # 4) \/ out g (gx g i) b }.
  Definition move (f : Q -> Q) (b : box_node B) : box_node B := BN (bn_obj b) (f (bn_x b)) (bn_y b) (bn_dom b) (bn_cod b).
  Lemma boxes_map f (g : drw) : dr_boxes (map_x f g) = map (move f) (dr_boxes g). Proof. reflexivity. Qed.
  Lemma out_map f (g : drw) x b : grows f -> bounded g b -> out g x b -> out (map_x f g) (f x) (move f b).
  Proof.
    intros F BD [H|H]; [left|right]; intros z Hz; unfold move in Hz; rewrite (bxs_map f BD) in Hz; apply in_map_iff in Hz; destruct Hz as (z0 & <- & Hz); specialize (H z0 Hz).
    - assert (K := F x z0). q.
    - assert (K := F z0 x). q.
  Qed.
  Lemma geo_map f good fol (g : drw) scan hist m : grows f -> geo good fol g scan hist m -> geo good fol (map_x f g) scan hist m.
  Proof.
    intros F [].
    assert (BB : forall b, In b (dr_boxes (map_x f g)) -> exists b0, b = move f b0 /\ In b0 (dr_boxes g)) by (intros b Hb; rewrite boxes_map in Hb; apply in_map_iff in Hb; destruct Hb as (b0 & <- & Hb); eauto).
    assert (BI : forall b, In b (dr_boxes g) -> In (move f b) (dr_boxes (map_x f g))) by (intros b Hb; rewrite boxes_map; apply in_map; exact Hb).
    assert (IS : inside g scan) by (apply i_hist0; exact i_cur0).
    constructor.
    - exact i_cur0.
    - intros s Hs. destruct (i_hist0 s Hs) as (I & S). split; [apply inside_map; exact I|apply sp_map; assumption].
    - intros b Hb. destruct (BB b Hb) as (b0 & -> & Hb0). intros i Hi. rewrite size_map. exact (i_box0 b0 Hb0 i Hi).
    - intros s t Hw. destruct (i_wire0 s t Hw) as (L1 & L2 & E & Y). rewrite size_map, !gx_map, !gy_map by assumption. split; [exact L1|]. split; [exact L2|]. split; [apply grows_eq; assumption|exact Y].
    - intros i Hi. rewrite gy_map. destruct (i_src0 i Hi) as [E|(b & Hb & E)]; [left; exact E|]. right. exists (move f b). split; [apply BI; exact Hb|exact E].
    - intros b Hb. destruct (BB b Hb) as (b0 & -> & Hb0). destruct (i_side0 b0 Hb0) as (S1 & S2). split; intros i Hi; rewrite gy_map; [exact (S1 i Hi)|exact (S2 i Hi)].
    - intros s t Hw. destruct (i_tgt0 s t Hw) as (b & Hb & E). exists (move f b). split; [apply BI; exact Hb|exact E].
    - intros b Hb. destruct (BB b Hb) as (b0 & -> & Hb0). exact (i_y0 b0 Hb0).
    - exact i_min0.
    - intros E b Hb. rewrite boxes_map, map_length. destruct (BB b Hb) as (b0 & -> & Hb0). exact (i_fol0 E b0 Hb0).
    - intros G i j a b L Ea Eb. rewrite boxes_map, nth_error_map in Ea, Eb. destruct (nth_error (dr_boxes g) i) as [a0|] eqn:Ea0; [|discriminate]. destruct (nth_error (dr_boxes g) j) as [b0|] eqn:Eb0; [|discriminate].
      injection Ea as <-. injection Eb as <-. assert (Ia := nth_error_In _ _ Ea0). assert (Ib := nth_error_In _ _ Eb0).
      destruct (i_bb0 G i j a0 b0 L Ea0 Eb0) as [H|[H|H]]; [left; exact H|right; left|right; right]; intros x z Hx Hz; unfold move in Hx, Hz; rewrite (bxs_map f (i_box0 _ Ia)) in Hx; rewrite (bxs_map f (i_box0 _ Ib)) in Hz;
        apply in_map_iff in Hx; destruct Hx as (x0 & <- & Hx); apply in_map_iff in Hz; destruct Hz as (z0 & <- & Hz); specialize (H x0 z0 Hx Hz); [assert (K := F x0 z0)|assert (K := F z0 x0)]; lra.
    - intros G s t b Hw Hb. destruct (BB b Hb) as (b0 & -> & Hb0). destruct (i_wire0 s t Hw) as (L1 & L2 & _). rewrite !gy_map, gx_map by assumption. destruct (i_wb0 G s t b0 Hw Hb0) as [H|[H|H]]; [left; exact H|right; left; exact H|right; right]. apply out_map; auto.
    - intros G i b Hi Hb. destruct (BB b Hb) as (b0 & -> & Hb0). rewrite gy_map, gx_map by (apply IS; exact Hi). destruct (i_pb0 G i b0 Hi Hb0) as [H|H]; [left; exact H|right]. apply out_map; auto.
  Qed.

  (** *** placing a box *)
  Record fits (good : Prop) (fol : bool) (g : drw) (scan : list nat) (box : B) (off : nat) (x y l r : Q) : Prop := {
    f_left : (0 < off)%nat -> gx g (nth (off - 1) scan 0%nat) <= x - hw box;
    f_right : (off + List.length (bd box) < List.length scan)%nat -> x + hw box <= gx g (nth (off + List.length (bd box)) scan 0%nat);
    f_mid : (0 < List.length (bd box))%nat -> gx g (nth off scan 0%nat) + gx g (nth (off + List.length (bd box) - 1) scan 0%nat) == 2 * x;
    f_y : y <= 0;
    f_dom : forall i b, (off <= i < off + List.length (bd box))%nat -> In b (dr_boxes g) -> In (nth i scan 0%nat) (bn_cod b) -> y + 1 <= bn_y b;
    f_box : good -> forall b, In b (dr_boxes g) -> y + 1 <= bn_y b \/ (forall z, In z (bxs g b) -> r < z - LEDGE) \/ (forall z, In z (bxs g b) -> z + LEDGE < l);
    f_ldom : (0 < List.length (bd box))%nat -> l <= gx g (nth off scan 0%nat) - LEDGE /\ gx g (nth (off + List.length (bd box) - 1) scan 0%nat) + LEDGE <= r;
    f_lcod : l <= x - X_SPACING * qnat (pred (List.length (bc box))) / 2 - LEDGE /\ x + X_SPACING * qnat (pred (List.length (bc box))) / 2 + LEDGE <= r;
    f_fol : fol = true -> y == - qnat (List.length (dr_boxes g)) }.
  Lemma qnat_le i j : (i <= j)%nat -> qnat i <= qnat j.
  Proof. intro H. unfold qnat. rewrite <- Zle_Qle. lia. Qed.
  Lemma qnat_lt i j : (i < j)%nat -> qnat i + 1 <= qnat j.
  Proof. intro H. unfold qnat. change 1 with (inject_Z 1). rewrite <- inject_Z_plus, <- Zle_Qle. lia. Qed.
  Lemma qnat_S i : qnat (S i) == qnat i + 1.
  Proof. unfold qnat. change 1 with (inject_Z 1). rewrite <- inject_Z_plus. rewrite Nat2Z.inj_succ. reflexivity. Qed.
  Section Step.
    Variables (good : Prop) (fol : bool) (g : drw) (scan : list nat) (hist : list (list nat)) (m : Q) (box : B) (off : nat) (x y l r : Q).
    Hypothesis G : geo good fol g scan hist m.
    Hypothesis LE : (off + List.length (bd box) <= List.length scan)%nat.
    Hypothesis FT : fits good fol g scan box off x y l r.
    Let nd := List.length (bd box).
    Let nc := List.length (bc box).
    Let n := pred nc.
    Let g' := with_box bd bc quantum g scan box off x y.
    Let scan' := next_scan bd bc g scan box off.
    Let nb := BN box x y (seq (size g) nd) (seq (size g + nd) nc).
    Lemma IN0 : inside g scan. Proof. exact (proj1 (i_hist G (i_cur G))). Qed.
    Lemma SP0 : sp g scan. Proof. exact (proj2 (i_hist G (i_cur G))). Qed.
    Lemma old i : (i < List.length scan)%nat -> (nth i scan 0 < size g)%nat.
    Proof. intro H. apply inside_nth; [exact IN0|exact H]. Qed.
    (** where the outgoing wires are *)
    Lemma cod_at : (nd = nc /\ forall k, cod_x bd bc quantum g scan box off x k = gx g (nth (off + k) scan 0%nat)) \/ forall k, cod_x bd bc quantum g scan box off x k = x + X_SPACING * (qnat k - qnat n / 2).
    Proof. unfold cod_x. destruct (quantum box && (List.length (bd box) =? List.length (bc box))%nat) eqn:E; [left|right; intro k; rewrite tl_length; reflexivity]. apply andb_true_iff in E as (_ & E). apply Nat.eqb_eq in E. split; [exact E|reflexivity]. Qed.
    Lemma new_xs z : In z (bxs g' nb) -> (exists i, (i < nd)%nat /\ z = gx g (nth (off + i) scan 0%nat)) \/ (x - X_SPACING * qnat n / 2 <= z /\ z <= x + X_SPACING * qnat n / 2).
    Proof.
      unfold bxs, legs, nb. cbn [bn_dom bn_cod bn_x]. destruct (seq (size g) nd ++ seq (size g + nd) nc) as [|i0 l0] eqn:E.
      - intros [<-|[]]. right. assert (H := @qnat_pos n). split; q.
      - rewrite <- E. intro H. apply in_map_iff in H. destruct H as (i & <- & H). apply in_app_or in H. destruct H as [H|H]; apply in_seq in H.
        + left. exists (i - size g)%nat. split; [lia|]. replace i with (size g + (i - size g))%nat at 1 by lia. apply gx_dom. unfold nd in *. lia.
        + assert (K : (i - (size g + nd) < nc)%nat) by lia. assert (EX : gx g' i = cod_x bd bc quantum g scan box off x (i - (size g + nd))).
          { replace i with (size g + List.length (bd box) + (i - (size g + nd)))%nat at 1 by (unfold nd in *; lia). apply gx_cod. exact K. }
          rewrite EX. destruct cod_at as [(E1 & ->)| ->].
          * left. exists (i - (size g + nd))%nat. split; [lia|reflexivity].
          * right. assert (H1 := @qnat_pos (i - (size g + nd))). assert (H2 : qnat (i - (size g + nd)) <= qnat n) by (apply qnat_le; unfold n; lia). split; q.
    Qed.
    Lemma dom_between i : (i < nd)%nat -> gx g (nth off scan 0%nat) <= gx g (nth (off + i) scan 0%nat) /\ gx g (nth (off + i) scan 0%nat) <= gx g (nth (off + nd - 1) scan 0%nat).
    Proof.
      intro H. split.
      - destruct i as [|i]; [rewrite <- plus_n_O; lra|]. assert (K : gx g (nth off scan 0%nat) + (5 # 2) <= gx g (nth (off + S i) scan 0%nat)) by (apply SP0; unfold nd in *; lia). lra.
      - destruct (Nat.eq_dec i (nd - 1)) as [->|N]; [replace (off + (nd - 1))%nat with (off + nd - 1)%nat by lia; lra|].
        assert (K : gx g (nth (off + i) scan 0%nat) + (5 # 2) <= gx g (nth (off + nd - 1) scan 0%nat)) by (apply SP0; unfold nd in *; lia). lra.
    Qed.
    Lemma new_between z : In z (bxs g' nb) -> l + LEDGE <= z /\ z + LEDGE <= r.
    Proof.
      intro H. destruct (new_xs H) as [(i & L & ->)|(L1 & L2)].
      - destruct (dom_between L) as (D1 & D2). destruct (f_ldom FT) as (F1 & F2); [unfold nd in *; lia|]. change (List.length (bd box)) with nd in F2. split; q.
      - destruct (f_lcod FT) as (F1 & F2). change (pred (List.length (bc box))) with n in F1, F2. split; q.
    Qed.
    (** wires to the left and right of the box *)
    Lemma left_of p z : (p < off)%nat -> In z (bxs g' nb) -> gx g (nth p scan 0%nat) + (5 # 2) <= z.
    Proof.
      intros L H. destruct (new_xs H) as [(i & Li & ->)|(L1 & L2)]; [apply SP0; unfold nd in *; lia|].
      assert (K : gx g (nth p scan 0%nat) <= gx g (nth (off - 1) scan 0%nat)).
      { destruct (Nat.eq_dec p (off - 1)) as [->|N]; [lra|]. assert (K : gx g (nth p scan 0%nat) + (5 # 2) <= gx g (nth (off - 1) scan 0%nat)) by (apply SP0; lia). lra. }
      assert (F := f_left FT). assert (F' := F ltac:(lia)). unfold hw in F'. change (pred (List.length (bc box))) with n in F'. q.
    Qed.
    Lemma right_of p z : (off + nd <= p < List.length scan)%nat -> In z (bxs g' nb) -> z + (5 # 2) <= gx g (nth p scan 0%nat).
    Proof.
      intros L H. destruct (new_xs H) as [(i & Li & ->)|(L1 & L2)]; [apply SP0; unfold nd in *; lia|].
      assert (K : gx g (nth (off + nd) scan 0%nat) <= gx g (nth p scan 0%nat)).
      { destruct (Nat.eq_dec p (off + nd)) as [->|N]; [lra|]. assert (K : gx g (nth (off + nd) scan 0%nat) + (5 # 2) <= gx g (nth p scan 0%nat)) by (apply SP0; lia). lra. }
      assert (F := f_right FT). change (List.length (bd box)) with nd in F. assert (F' := F ltac:(lia)). unfold hw in F'. change (pred (List.length (bc box))) with n in F'. q.
    Qed.
    Lemma cod_in k : (k < nc)%nat -> In (gx g' (size g + nd + k)) (bxs g' nb).
    Proof.
      intro H. unfold bxs, legs, nb. cbn [bn_dom bn_cod bn_x]. assert (I : In (size g + nd + k)%nat (seq (size g) nd ++ seq (size g + nd) nc)) by (apply in_or_app; right; apply in_seq; lia).
      destruct (seq (size g) nd ++ seq (size g + nd) nc) as [|i0 l0]; [destruct I|]. apply in_map. exact I.
    Qed.
    Lemma size' : size g' = (size g + nd + nc)%nat. Proof. apply size_box. Qed.
    Lemma gx' i : (i < size g)%nat -> gx g' i = gx g i. Proof. apply gx_old. Qed.
    Lemma gy' i : (i < size g)%nat -> gy g' i = gy g i. Proof. apply gy_old. Qed.
    (** the new scan *)
    Lemma next_at p : (p < List.length scan')%nat ->
      ((p < off)%nat /\ nth p scan' 0%nat = nth p scan 0%nat) \/
      (exists k, (k < nc)%nat /\ p = (off + k)%nat /\ nth p scan' 0%nat = (size g + nd + k)%nat) \/
      (exists p', (off + nd <= p' < List.length scan)%nat /\ p = (p' + nc - nd)%nat /\ nth p scan' 0%nat = nth p' scan 0%nat).
    Proof.
      intro H. unfold scan' in *. rewrite next_length in H by exact LE. rewrite nth_next by exact LE. assert (LE' : (off + nd <= List.length scan)%nat) by exact LE. change (List.length (bd box)) with nd in H |- *. change (List.length (bc box)) with nc in H |- *. destruct (Nat.ltb_spec p off); [left; auto|]. destruct (Nat.ltb_spec p (off + nc)).
      - right. left. exists (p - off)%nat. assert (E : (p - off <? nc)%nat = true) by (apply Nat.ltb_lt; lia). rewrite E. split; [lia|]. split; [lia|]. reflexivity.
      - right. right. exists (p + nd - nc)%nat. split; [lia|]. split; [lia|]. reflexivity.
    Qed.
    Lemma next_in i : In i scan' -> (exists p, ((p < off)%nat \/ (off + nd <= p < List.length scan)%nat) /\ i = nth p scan 0%nat) \/ exists k, (k < nc)%nat /\ i = (size g + nd + k)%nat.
    Proof.
      intro H. destruct (In_nth _ _ 0%nat H) as (p & L & <-). destruct (next_at L) as [(P & ->)|[(k & K & _ & ->)|(p' & P & _ & ->)]]; [left; exists p; auto|right; exists k; auto|left; exists p'; auto].
    Qed.
    Lemma inside' : inside g' scan'.
    Proof. intros i H. rewrite size'. destruct (next_in H) as [(p & P & ->)|(k & K & ->)]; [|lia]. assert (O := @old p ltac:(unfold nd in *; lia)). lia. Qed.
    Lemma sp' : sp g' scan'.
    Proof.
      intros i j L. assert (Li : (i < List.length scan')%nat) by lia. assert (Lj : (j < List.length scan')%nat) by lia.
      destruct (next_at Li) as [(Pi & Ei)|[(ki & Ki & Pi & Ei)|(pi & Pi & Qi & Ei)]]; destruct (next_at Lj) as [(Pj & Ej)|[(kj & Kj & Pj & Ej)|(pj & Pj & Qj & Ej)]]; try lia; rewrite Ei, Ej.
      - rewrite !gx' by (apply old; lia). apply SP0. lia.
      - rewrite (@gx' (nth i scan 0%nat)) by (apply old; lia). apply left_of; [exact Pi|]. apply cod_in. exact Kj.
      - rewrite !gx' by (apply old; lia). apply SP0. lia.
      - unfold g'. rewrite !gx_cod by assumption. destruct cod_at as [(E1 & E)|E]; rewrite !E.
        + apply SP0. unfold nd in *. lia.
        + assert (K := @qnat_lt ki kj ltac:(lia)). q.
      - rewrite (@gx' (nth pj scan 0%nat)) by (apply old; lia). apply right_of; [exact Pj|]. apply cod_in. exact Ki.
      - rewrite !gx' by (apply old; lia). apply SP0. lia.
    Qed.

    Lemma boxes' : dr_boxes g' = dr_boxes g ++ [nb]. Proof. reflexivity. Qed.
    Lemma box_cases b : In b (dr_boxes g') -> In b (dr_boxes g) \/ b = nb.
    Proof. rewrite boxes'. intro H. apply in_app_or in H. destruct H as [H|[<-|[]]]; auto. Qed.
    Lemma bxs' b : In b (dr_boxes g) -> bxs g' b = bxs g b.
    Proof. intro H. unfold bxs. assert (K := i_box G H). unfold bounded in K. destruct (legs b) as [|i0 l0]; [reflexivity|]. apply map_ext_in. intros i I. apply gx'. apply K. exact I. Qed.
    Lemma wire_cases s t : In (s, t) (dr_wires g') -> In (s, t) (dr_wires g) \/ exists i, (i < nd)%nat /\ s = nth (off + i) scan 0%nat /\ t = (size g + i)%nat.
    Proof.
      unfold g', with_box. cbn [dr_wires]. intro H. apply in_app_or in H. destruct H as [H|H]; [auto|]. right. destruct (In_nth _ _ (0%nat, 0%nat) H) as (i & L & E).
      rewrite combine_length, firstn_length, skipn_length, seq_length in L. rewrite combine_nth in E by (rewrite firstn_length, skipn_length, seq_length; lia). exists i. split; [unfold nd; lia|].
      injection E as <- <-. split; [|apply seq_nth; lia]. rewrite <- nth_skipn. rewrite <- (firstn_skipn (List.length (bd box)) (skipn off scan)) at 2. rewrite app_nth1; [reflexivity|]. rewrite firstn_length, skipn_length. lia.
    Qed.
    Lemma new_dom i : In i (bn_dom nb) -> exists k, (k < nd)%nat /\ i = (size g + k)%nat.
    Proof. unfold nb. cbn [bn_dom]. intro H. apply in_seq in H. exists (i - size g)%nat. lia. Qed.
    Lemma new_cod i : In i (bn_cod nb) -> exists k, (k < nc)%nat /\ i = (size g + nd + k)%nat.
    Proof. unfold nb. cbn [bn_cod]. intro H. apply in_seq in H. exists (i - (size g + nd))%nat. lia. Qed.
    Lemma gy_dom' k : (k < nd)%nat -> gy g' (size g + k) = y + HALF_BOX_HEIGHT. Proof. apply gy_dom. Qed.
    Lemma gy_cod' k : (k < nc)%nat -> gy g' (size g + nd + k) = y - HALF_BOX_HEIGHT. Proof. apply gy_cod. Qed.
    Lemma gx_dom' k : (k < nd)%nat -> gx g' (size g + k) = gx g (nth (off + k) scan 0%nat). Proof. apply gx_dom. Qed.
    Lemma legs_in b i : In i (legs b) -> In (gx g i) (bxs g b).
    Proof. unfold bxs. destruct (legs b); [intros []|]. intro H. apply in_map. exact H. Qed.
    (** an earlier box that is not a unit higher is apart from the new one *)
    Lemma new_apart b : good -> In b (dr_boxes g) -> y + 1 <= bn_y b \/ (forall v z, In v (bxs g b) -> In z (bxs g' nb) -> v + 1 < z) \/ (forall v z, In v (bxs g b) -> In z (bxs g' nb) -> z + 1 < v).
    Proof.
      intros Gd Hb. destruct (f_box FT Gd Hb) as [H|[H|H]]; [left; exact H|right; right|right; left]; intros v z Hv Hz; specialize (H v Hv); destruct (new_between Hz); q.
    Qed.
    Lemma geo_box : geo good fol g' scan' (scan' :: hist) (py_min2 m y).
    Proof.
      destruct (min2_spec m y) as (_ & M1 & M2). assert (Y0 := f_y FT). constructor.
      - left. reflexivity.
      - intros s [<-|Hs]; [split; [exact inside'|exact sp']|]. destruct (i_hist G Hs) as (I & SS). split.
        + intros i Hi. rewrite size'. specialize (I i Hi). lia.
        + intros i j L. rewrite !gx' by (apply I, nth_In; lia). apply SS. exact L.
      - intros b Hb i Hi. rewrite size'. destruct (box_cases Hb) as [H| ->]; [assert (K := i_box G H Hi); lia|]. unfold legs in Hi. apply in_app_or in Hi. destruct Hi as [Hi|Hi]; [destruct (new_dom Hi) as (k & K & ->)|destruct (new_cod Hi) as (k & K & ->)]; lia.
      - intros s t Hw. rewrite size'. destruct (wire_cases Hw) as [H|(i & L & -> & ->)].
        + destruct (i_wire G H) as (L1 & L2 & E & Y). rewrite !gx', !gy' by assumption. split; [lia|]. split; [lia|]. split; assumption.
        + assert (O : (nth (off + i) scan 0 < size g)%nat) by (apply old; unfold nd in *; lia). rewrite gx_dom', gx', gy_dom', gy' by assumption. split; [lia|]. split; [lia|]. split; [reflexivity|].
          assert (IS : In (nth (off + i) scan 0%nat) scan) by (apply nth_In; unfold nd in *; lia). destruct (i_src G IS) as [E|(b & Hb & E)]; [q|]. assert (K := @f_dom _ _ _ _ _ _ _ _ _ _ FT (off + i)%nat b ltac:(unfold nd in *; lia) Hb E).
          assert (SD := proj2 (i_side G Hb) _ E). q.
      - intros i Hi. destruct (next_in Hi) as [(p & P & ->)|(k & K & ->)].
        + assert (L : (p < List.length scan)%nat) by (unfold nd in *; lia). rewrite gy' by (apply old; exact L). destruct (i_src G (nth_In scan 0%nat L)) as [E|(b & Hb & E)]; [left; exact E|right]. exists b. split; [rewrite boxes'; apply in_or_app; left; exact Hb|exact E].
        + right. exists nb. split; [rewrite boxes'; apply in_or_app; right; left; reflexivity|]. unfold nb. cbn [bn_cod]. apply in_seq. lia.
      - intros b Hb. destruct (box_cases Hb) as [H| ->].
        + destruct (i_side G H) as (S1 & S2). split; intros i Hi; (rewrite gy'; [auto|apply (i_box G H); unfold legs; apply in_or_app; auto]).
        + split; intros i Hi; [destruct (new_dom Hi) as (k & K & ->); rewrite gy_dom' by exact K|destruct (new_cod Hi) as (k & K & ->); rewrite gy_cod' by exact K]; unfold nb; cbn [bn_y]; q.
      - intros s t Hw. destruct (wire_cases Hw) as [H|(i & L & -> & ->)].
        + destruct (i_tgt G H) as (b & Hb & E). exists b. split; [rewrite boxes'; apply in_or_app; left; exact Hb|exact E].
        + exists nb. split; [rewrite boxes'; apply in_or_app; right; left; reflexivity|]. unfold nb. cbn [bn_dom]. apply in_seq. lia.
      - intros b Hb. destruct (box_cases Hb) as [H| ->]; [destruct (i_y G H); split; lra|]. unfold nb. cbn [bn_y]. split; lra.
      - assert (K := i_min G). lra.
      - intros F b Hb. rewrite boxes', app_length. cbn [List.length]. rewrite Nat.add_1_r, qnat_S. destruct (box_cases Hb) as [H| ->]; [assert (K := i_fol G F H); lra|]. unfold nb. cbn [bn_y]. assert (K := f_fol FT F). lra.
      - intros Gd i j a b L Ea Eb. rewrite boxes' in Ea, Eb. assert (Lj := proj1 (nth_error_Some (dr_boxes g ++ [nb]) j) ltac:(rewrite Eb; discriminate)). rewrite app_length in Lj. cbn [List.length] in Lj.
        rewrite nth_error_app1 in Ea by lia. assert (Ia := nth_error_In _ _ Ea). destruct (Nat.eq_dec j (List.length (dr_boxes g))) as [E|N].
        + rewrite nth_error_app2 in Eb by lia. rewrite E, Nat.sub_diag in Eb. injection Eb as <-. unfold apart. rewrite (bxs' Ia). exact (new_apart Gd Ia).
        + rewrite nth_error_app1 in Eb by lia. assert (Ib := nth_error_In _ _ Eb). unfold apart. rewrite (bxs' Ia), (bxs' Ib). exact (i_bb G Gd L Ea Eb).
      - intros Gd s t b Hw Hb. destruct (wire_cases Hw) as [H|(i & L & -> & ->)].
        + destruct (i_wire G H) as (L1 & L2 & EX & Y). rewrite !gy', gx' by assumption. destruct (box_cases Hb) as [Hb0| ->].
          * unfold out. rewrite (bxs' Hb0). exact (i_wb G Gd H Hb0).
          * destruct (i_tgt G H) as (c & Hc & Et). assert (SD := proj1 (i_side G Hc) _ Et). assert (IC : In (gx g t) (bxs g c)) by (apply legs_in; unfold legs; apply in_or_app; left; exact Et).
            destruct (new_apart Gd Hc) as [K|[K|K]].
            -- right. left. unfold nb. cbn [bn_y]. lra.
            -- right. right. left. intros z Hz. specialize (K _ z IC Hz). q.
            -- right. right. right. intros z Hz. specialize (K _ z IC Hz). q.
        + assert (O : (nth (off + i) scan 0 < size g)%nat) by (apply old; unfold nd in *; lia). rewrite gy_dom', gx', gy' by assumption. destruct (box_cases Hb) as [Hb0| ->].
          * unfold out. rewrite (bxs' Hb0). assert (IS : In (nth (off + i) scan 0%nat) scan) by (apply nth_In; unfold nd in *; lia). destruct (i_pb G Gd IS Hb0) as [K|K]; [left; exact K|right; right; exact K].
          * right. left. unfold nb. cbn [bn_y]. q.
      - intros Gd i b Hi Hb. destruct (next_in Hi) as [(p & P & ->)|(k & K & ->)].
        + assert (L : (p < List.length scan)%nat) by (unfold nd in *; lia). rewrite gy', gx' by (apply old; exact L). destruct (box_cases Hb) as [Hb0| ->].
          * unfold out. rewrite (bxs' Hb0). exact (i_pb G Gd (nth_In scan 0%nat L) Hb0).
          * right. destruct P as [P|P]; [left|right]; intros z Hz; [assert (K := left_of P Hz)|assert (K := right_of P Hz)]; q.
        + rewrite gy_cod' by exact K. destruct (box_cases Hb) as [Hb0| ->].
          * unfold out. rewrite (bxs' Hb0). assert (IC := cod_in K). destruct (new_apart Gd Hb0) as [H|[H|H]].
            -- left. q.
            -- right. right. intros z Hz. specialize (H _ _ Hz IC). q.
            -- right. left. intros z Hz. specialize (H _ _ Hz IC). q.
          * left. unfold nb. cbn [bn_y]. q.
    Qed.
  End Step.
End Lay.
