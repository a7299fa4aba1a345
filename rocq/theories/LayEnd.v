(** Proofs about the layout of drawings: outputs, the shift to the origin, and the result. *)
From Coq Require Import QArith Lqa Lia.
From Verif Require Import PyBase DiagModel GDiag GDiagSpec LayModel LaySpec LayFacts LayInv LayFinal.
Close Scope string_scope. Set Implicit Arguments. Unset Strict Implicit.
Open Scope Q_scope.

Section Lay.
  Variables (A B : Type) (bd bc : B -> list A) (quantum : B -> bool).
  Notation drw := (drawable A B).
  Definition out_ends (g : drw) (scan : list nat) (m : Q) (k : nat) (t : list A) : list (wire_end A) := map (fun '(i, obj) => WE KOutput obj (gx g (nth i scan 0%nat)) (m - 1)) (enum k t).
  Definition with_out (g : drw) (scan : list nat) (t : list A) (m : Q) : drw := DD (dr_boxes g) (dr_ends g ++ out_ends g scan m 0 t) (dr_wires g ++ combine scan (seq (size g) (List.length t))).
  Lemma out_loop (g : drw) scan m t : inside g scan -> forall k extra ws, (k + List.length t <= List.length scan)%nat ->
    foldM (fun g '(i, obj) => do s <- get scan i; do x <- end_x g s; let '(g, idx) := add_wire_end g (WE KOutput obj x (m - 1)) in Ok (add_wire g s idx)) (enum k t) (DD (dr_boxes g) (dr_ends g ++ extra) ws) =
    Ok (DD (dr_boxes g) (dr_ends g ++ extra ++ out_ends g scan m k t) (ws ++ combine (firstn (List.length t) (skipn k scan)) (seq (size g + List.length extra) (List.length t)))).
  Proof.
    intro IN. match goal with |- forall k extra ws, _ -> foldM ?f _ _ = _ => set (F := f) end.
    induction t as [|a t IH]; intros k extra ws LE; cbn [enum foldM List.length].
    - cbn [out_ends enum map firstn combine seq]. rewrite !app_nil_r. reflexivity.
    - cbn [List.length] in LE. assert (L0 : (nth k scan 0 < size g)%nat) by (apply IN, nth_In; lia).
      assert (E : F (DD (dr_boxes g) (dr_ends g ++ extra) ws) (k, a) =
        Ok (DD (dr_boxes g) (dr_ends g ++ extra ++ [WE KOutput a (gx g (nth k scan 0%nat)) (m - 1)]) (ws ++ [(nth k scan 0%nat, size g + List.length extra)%nat]))).
      { unfold F. rewrite (@get_ok _ scan k 0%nat) by lia. cbn [bind]. rewrite end_x_ok by (unfold size in *; cbn [dr_ends]; rewrite app_length; lia).
        rewrite gx_ext by exact L0. cbn [bind]. unfold add_wire_end, add_wire. cbn [dr_boxes dr_ends dr_wires]. rewrite <- app_assoc, app_length. reflexivity. }
      rewrite E. cbn [bind]. rewrite IH by lia. rewrite !app_length. cbn [List.length]. do 2 f_equal.
      + rewrite <- !app_assoc. reflexivity.
      + rewrite (@skipn_nth _ scan k 0%nat) by lia. cbn [firstn seq combine]. rewrite <- app_assoc. cbn [app]. replace (S (size g + List.length extra)) with (size g + (List.length extra + 1))%nat by lia. reflexivity.
  Qed.
  Lemma outputs_ok (g : drw) scan t m : inside g scan -> List.length t = List.length scan -> add_outputs g scan t m = Ok (with_out g scan t m).
  Proof.
    intros IN L. unfold add_outputs. assert (D := @out_loop g scan m t IN 0%nat [] (dr_wires g)). rewrite app_nil_r in D. unfold with_out. destruct g as [bs es ws]. cbn [dr_boxes dr_ends dr_wires] in *. rewrite D by lia.
    cbn [List.length app skipn]. rewrite <- plus_n_O, L, firstn_all. reflexivity.
  Qed.

  (** what holds of the finished drawing *)
  Record fin (good : Prop) (g : drw) (hist : list (list nat)) : Prop := {
    n_hist : forall s, In s hist -> inside g s /\ sp g s;
    n_box : forall b, In b (dr_boxes g) -> bounded g b;
    n_wire : forall s t, In (s, t) (dr_wires g) -> (s < size g)%nat /\ (t < size g)%nat /\ gx g s == gx g t /\ gy g t + (1 # 2) <= gy g s;
    n_side : forall b, In b (dr_boxes g) -> (forall i, In i (bn_dom b) -> gy g i == bn_y b + (1 # 4)) /\ (forall i, In i (bn_cod b) -> gy g i == bn_y b - (1 # 4));
    n_bb : good -> forall i j a b, (i < j)%nat -> nth_error (dr_boxes g) i = Some a -> nth_error (dr_boxes g) j = Some b -> apart g a b;
    n_wb : good -> forall s t b, In (s, t) (dr_wires g) -> In b (dr_boxes g) -> gy g s <= bn_y b - (1 # 4) \/ bn_y b + (1 # 4) <= gy g t \/ out g (gx g s) b }.
  Lemma fin_out good fol (g : drw) scan hist m t : geo good fol g scan hist m -> List.length t = List.length scan -> fin good (with_out g scan t m) hist.
  Proof.
    intros G L. set (g' := with_out g scan t m). assert (IN := proj1 (i_hist G (i_cur G))).
    assert (SZ : size g' = (size g + List.length t)%nat) by (unfold size, g', with_out, out_ends; cbn [dr_ends]; rewrite app_length, map_length, enum_length; reflexivity).
    assert (GX : forall i, (i < size g)%nat -> gx g' i = gx g i) by (intros i H; apply gx_ext; exact H).
    assert (GY : forall i, (i < size g)%nat -> gy g' i = gy g i) by (intros i H; unfold gy, g', with_out; cbn [dr_ends]; rewrite map_app, app_nth1; [reflexivity|]; rewrite map_length; exact H).
    assert (GN : forall i, (i < List.length t)%nat -> gx g' (size g + i) = gx g (nth i scan 0%nat) /\ gy g' (size g + i) = m - 1).
    { intros i H. assert (LI : (List.length (dr_ends g) + i - List.length (dr_ends g))%nat = i) by lia. split.
      - unfold gx at 1, g', with_out, size. cbn [dr_ends]. rewrite map_app, app_nth2; rewrite map_length; [|lia]. unfold out_ends. rewrite map_map, LI.
        destruct (@nth_enum _ _ (fun p => we_x (let '(i0, obj) := p in WE KOutput obj (gx g (nth i0 scan 0%nat)) (m - 1))) t 0 0%nat i H) as (a & ->). reflexivity.
      - unfold gy, g', with_out, size. cbn [dr_ends]. rewrite map_app, app_nth2; rewrite map_length; [|lia]. unfold out_ends. rewrite map_map, LI.
        destruct (@nth_enum _ _ (fun p => we_y (let '(i0, obj) := p in WE KOutput obj (gx g (nth i0 scan 0%nat)) (m - 1))) t 0 0%nat i H) as (a & ->). reflexivity. }
    assert (BX : forall b, In b (dr_boxes g) -> bxs g' b = bxs g b).
    { intros b H. unfold bxs. assert (K := i_box G H). unfold bounded in K. destruct (legs b) as [|i0 l0]; [reflexivity|]. apply map_ext_in. intros i I. apply GX. apply K. exact I. }
    assert (WC : forall s u, In (s, u) (dr_wires g') -> In (s, u) (dr_wires g) \/ exists i, (i < List.length t)%nat /\ s = nth i scan 0%nat /\ u = (size g + i)%nat).
    { unfold g', with_out. cbn [dr_wires]. intros s u H. apply in_app_or in H. destruct H as [H|H]; [auto|]. right. destruct (In_nth _ _ (0%nat, 0%nat) H) as (i & Li & E). rewrite combine_length, seq_length in Li.
      rewrite combine_nth in E by (rewrite seq_length; lia). exists i. split; [lia|]. injection E as <- <-. split; [reflexivity|apply seq_nth; lia]. }
    constructor.
    - intros s Hs. destruct (i_hist G Hs) as (I & SS). split.
      + intros i Hi. rewrite SZ. specialize (I i Hi). lia.
      + intros i j Lj. rewrite !GX by (apply I, nth_In; lia). apply SS. exact Lj.
    - intros b Hb i Hi. rewrite SZ. assert (K := i_box G Hb Hi). lia.
    - intros s u Hw. rewrite SZ. destruct (WC s u Hw) as [H|(i & Li & -> & ->)].
      + destruct (i_wire G H) as (L1 & L2 & E & Y). rewrite !GX, !GY by assumption. split; [lia|]. split; [lia|]. split; assumption.
      + assert (O : (nth i scan 0 < size g)%nat) by (apply inside_nth; [exact IN|lia]). destruct (GN i Li) as (-> & ->). rewrite GX, GY by exact O. split; [lia|]. split; [lia|]. split; [reflexivity|].
        assert (IS : In (nth i scan 0%nat) scan) by (apply nth_In; lia). destruct (i_src G IS) as [E|(b & Hb & E)]; [assert (K := i_min G); lra|]. assert (SD := proj2 (i_side G Hb) _ E). destruct (i_y G Hb). lra.
    - intros b Hb. destruct (i_side G Hb) as (S1 & S2). split; intros i Hi; (rewrite GY; [auto|apply (i_box G Hb); unfold legs; apply in_or_app; auto]).
    - intros Gd i j a b Lj Ea Eb. unfold apart. rewrite (BX a (nth_error_In _ _ Ea)), (BX b (nth_error_In _ _ Eb)). exact (i_bb G Gd Lj Ea Eb).
    - intros Gd s u b Hw Hb. unfold out. rewrite (BX b Hb). destruct (WC s u Hw) as [H|(i & Li & -> & ->)].
      + destruct (i_wire G H) as (L1 & L2 & _). rewrite !GY, GX by assumption. exact (i_wb G Gd H Hb).
      + assert (O : (nth i scan 0 < size g)%nat) by (apply inside_nth; [exact IN|lia]). rewrite GX, GY by exact O. assert (IS : In (nth i scan 0%nat) scan) by (apply nth_In; lia). destruct (i_pb G Gd IS Hb) as [K|K]; [left; exact K|right; right; exact K].
  Qed.
  Lemma fin_map_x good f (g : drw) hist : grows f -> fin good g hist -> fin good (map_x f g) hist.
  Proof.
    intros F [].
    assert (BB : forall b, In b (dr_boxes (map_x f g)) -> exists b0, b = move f b0 /\ In b0 (dr_boxes g)) by (intros b Hb; rewrite boxes_map in Hb; apply in_map_iff in Hb; destruct Hb as (b0 & <- & Hb); eauto).
    constructor.
    - intros s Hs. destruct (n_hist0 s Hs) as (I & S). split; [apply inside_map; exact I|apply sp_map; assumption].
    - intros b Hb. destruct (BB b Hb) as (b0 & -> & Hb0). intros i Hi. rewrite size_map. exact (n_box0 b0 Hb0 i Hi).
    - intros s t Hw. destruct (n_wire0 s t Hw) as (L1 & L2 & E & Y). rewrite size_map, !gx_map, !gy_map by assumption. split; [exact L1|]. split; [exact L2|]. split; [apply grows_eq; assumption|exact Y].
    - intros b Hb. destruct (BB b Hb) as (b0 & -> & Hb0). destruct (n_side0 b0 Hb0) as (S1 & S2). split; intros i Hi; rewrite gy_map; [exact (S1 i Hi)|exact (S2 i Hi)].
    - intros G i j a b L Ea Eb. rewrite boxes_map, nth_error_map in Ea, Eb. destruct (nth_error (dr_boxes g) i) as [a0|] eqn:Ea0; [|discriminate]. destruct (nth_error (dr_boxes g) j) as [b0|] eqn:Eb0; [|discriminate].
      injection Ea as <-. injection Eb as <-. assert (Ia := nth_error_In _ _ Ea0). assert (Ib := nth_error_In _ _ Eb0).
      destruct (n_bb0 G i j a0 b0 L Ea0 Eb0) as [H|[H|H]]; [left; exact H|right; left|right; right]; intros x z Hx Hz; unfold move in Hx, Hz; rewrite (bxs_map f (n_box0 _ Ia)) in Hx; rewrite (bxs_map f (n_box0 _ Ib)) in Hz;
        apply in_map_iff in Hx; destruct Hx as (x0 & <- & Hx); apply in_map_iff in Hz; destruct Hz as (z0 & <- & Hz); specialize (H x0 z0 Hx Hz); [assert (K := F x0 z0)|assert (K := F z0 x0)]; lra.
    - intros G s t b Hw Hb. destruct (BB b Hb) as (b0 & -> & Hb0). destruct (n_wire0 s t Hw) as (L1 & L2 & _). rewrite !gy_map, gx_map by assumption. destruct (n_wb0 G s t b0 Hw Hb0) as [H|[H|H]]; [left; exact H|right; left; exact H|right; right]. apply out_map; auto.
  Qed.
  Definition drop (c : Q) (b : box_node B) : box_node B := BN (bn_obj b) (bn_x b) (bn_y b - c) (bn_dom b) (bn_cod b).
  Lemma fin_map_y good c (g : drw) hist : fin good g hist -> fin good (map_y (fun y => y - c) g) hist.
  Proof.
    intros []. set (g' := map_y (fun y => y - c) g).
    assert (SZ : size g' = size g) by (unfold size, g', map_y; cbn [dr_ends]; apply map_length).
    assert (GX : forall i, gx g' i = gx g i) by (intro i; unfold gx, g', map_y; cbn [dr_ends]; rewrite map_map; reflexivity).
    assert (GY : forall i, (i < size g)%nat -> gy g' i = gy g i - c).
    { intros i H. unfold gy, g', map_y, size in *. cbn [dr_ends]. rewrite map_map. cbn [we_y]. destruct (nth_error (dr_ends g) i) as [e|] eqn:E; [|apply nth_error_None in E; lia].
      rewrite (nth_error_nth _ _ _ (map_nth_error (fun e => we_y e - c) _ _ E)), (nth_error_nth _ _ _ (map_nth_error (@we_y A) _ _ E)). reflexivity. }
    assert (BXS : forall b, bxs g' (drop c b) = bxs g b) by (intro b; unfold bxs, legs, drop; cbn [bn_dom bn_cod bn_x]; destruct (bn_dom b ++ bn_cod b); [reflexivity|apply map_ext; exact GX]).
    assert (BB : forall b, In b (dr_boxes g') -> exists b0, b = drop c b0 /\ In b0 (dr_boxes g)) by (intros b Hb; unfold g', map_y in Hb; cbn [dr_boxes] in Hb; apply in_map_iff in Hb; destruct Hb as (b0 & <- & Hb); exists b0; auto).
    constructor.
    - intros s Hs. destruct (n_hist0 s Hs) as (I & S). split; [intros i Hi; rewrite SZ; exact (I i Hi)|]. intros i j L. rewrite !GX. apply S. exact L.
    - intros b Hb. destruct (BB b Hb) as (b0 & -> & Hb0). intros i Hi. rewrite SZ. exact (n_box0 b0 Hb0 i Hi).
    - intros s t Hw. destruct (n_wire0 s t Hw) as (L1 & L2 & E & Y). rewrite SZ, !GX, !GY by assumption. split; [exact L1|]. split; [exact L2|]. split; [exact E|]. lra.
    - intros b Hb. destruct (BB b Hb) as (b0 & -> & Hb0). destruct (n_side0 b0 Hb0) as (S1 & S2). split; intros i Hi; unfold drop in Hi; cbn [bn_dom bn_cod] in Hi; (rewrite GY by (apply (n_box0 b0 Hb0); unfold legs; apply in_or_app; auto)); unfold drop; cbn [bn_y]; [specialize (S1 i Hi)|specialize (S2 i Hi)]; lra.
    - intros G i j a b L Ea Eb. unfold g', map_y in Ea, Eb. cbn [dr_boxes] in Ea, Eb. rewrite nth_error_map in Ea, Eb. destruct (nth_error (dr_boxes g) i) as [a0|] eqn:Ea0; [|discriminate]. destruct (nth_error (dr_boxes g) j) as [b0|] eqn:Eb0; [|discriminate].
      injection Ea as <-. injection Eb as <-. unfold apart. change (BN (bn_obj a0) (bn_x a0) (bn_y a0 - c) (bn_dom a0) (bn_cod a0)) with (drop c a0). change (BN (bn_obj b0) (bn_x b0) (bn_y b0 - c) (bn_dom b0) (bn_cod b0)) with (drop c b0). rewrite !BXS.
      destruct (n_bb0 G i j a0 b0 L Ea0 Eb0) as [H|[H|H]]; [left; unfold drop; cbn [bn_y]; lra|right; left; exact H|right; right; exact H].
    - intros G s t b Hw Hb. destruct (BB b Hb) as (b0 & -> & Hb0). destruct (n_wire0 s t Hw) as (L1 & L2 & _). rewrite !GY, GX by assumption. unfold out. rewrite BXS. destruct (n_wb0 G s t b0 Hw Hb0) as [H|[H|H]]; [left; unfold drop; cbn [bn_y]; lra|right; left; unfold drop; cbn [bn_y]; lra|right; right; exact H].
  Qed.

  (** *** moving to the origin *)
  Lemma origin_ok (g : drw) : dr_boxes g <> [] \/ dr_ends g <> [] -> exists a b, move_to_origin g = Ok (map_y (fun y => y - b) (map_x (fun x => x - a) g)) /\ at_origin (map_y (fun y => y - b) (map_x (fun x => x - a) g)).
  Proof.
    intro N. assert (NX : all_x g <> []) by (unfold all_x; destruct N as [N|N]; destruct (dr_boxes g), (dr_ends g); cbn; congruence). assert (NY : all_y g <> []) by (unfold all_y; destruct N as [N|N]; destruct (dr_boxes g), (dr_ends g); cbn; congruence).
    unfold move_to_origin. destruct (py_min_ok NX) as (a & -> & Ia & Ma). cbn [bind]. destruct (py_min_ok NY) as (lo & -> & Il & Ml). cbn [bind]. destruct (py_max_ok NY) as (hi & -> & Ih & Mh). cbn [bind]. cbv zeta. exists a, ((lo + hi) / 2). split; [reflexivity|].
    set (b := (lo + hi) / 2). set (g' := map_y (fun y => y - b) (map_x (fun x => x - a) g)).
    assert (PX : forall x, node_x g' x <-> exists x0, x = x0 - a /\ In x0 (all_x g)).
    { intro x. unfold node_x, g', map_y, map_x, all_x. cbn [dr_boxes dr_ends]. rewrite !map_map. cbn [bn_x we_x]. rewrite !in_map_iff. split.
      - intros [(e & <- & H)|(e & <- & H)]; [exists (bn_x e)|exists (we_x e)]; (split; [reflexivity|]); apply in_or_app; [left|right]; apply in_map; exact H.
      - intros (x0 & -> & H). apply in_app_or in H. destruct H as [H|H]; apply in_map_iff in H; destruct H as (e & <- & H); [left|right]; exists e; auto. }
    assert (PY : forall y, node_y g' y <-> exists y0, y = y0 - b /\ In y0 (all_y g)).
    { intro y. unfold node_y, g', map_y, map_x, all_y. cbn [dr_boxes dr_ends]. rewrite !map_map. cbn [bn_y we_y]. rewrite !in_map_iff. split.
      - intros [(e & <- & H)|(e & <- & H)]; [exists (bn_y e)|exists (we_y e)]; (split; [reflexivity|]); apply in_or_app; [left|right]; apply in_map; exact H.
      - intros (y0 & -> & H). apply in_app_or in H. destruct H as [H|H]; apply in_map_iff in H; destruct H as (e & <- & H); [left|right]; exists e; auto. }
    split; [exists (a - a); split; [apply PX; exists a; auto|lra]|]. split; [intros x Hx; apply PX in Hx; destruct Hx as (x0 & -> & Hx); apply Ma in Hx; lra|].
    exists ((hi - lo) / 2). split; [exists (hi - b); split; [apply PY; exists hi; auto|unfold b; q]|]. split; [exists (lo - b); split; [apply PY; exists lo; auto|unfold b; q]|].
    intros y Hy. apply PY in Hy. destruct Hy as (y0 & -> & Hy). assert (K1 := Ml _ Hy). assert (K2 := Mh _ Hy). unfold b. split; q.
  Qed.
  Lemma origin_err (g : drw) : dr_boxes g = [] -> dr_ends g = [] -> move_to_origin g = Err ValueError.
  Proof. intros H1 H2. unfold move_to_origin, all_x. rewrite H1, H2. reflexivity. Qed.

  (** *** in the words of the specification *)
  Lemma at_x_iff (g : drw) b x : bounded g b -> at_x g b x <-> In x (bxs g b).
  Proof.
    intro BD. unfold at_x, bxs, bounded, legs in *. split.
    - intros [(i & y & Hi & L)|(E & ->)]; [|rewrite E; left; reflexivity]. destruct (located_inv L) as (_ & -> & _). destruct (bn_dom b ++ bn_cod b) as [|i0 l0]; [destruct Hi|]. apply in_map. exact Hi.
    - destruct (bn_dom b ++ bn_cod b) as [|i0 l0]; [intros [<-|[]]; right; auto|]. intro H. left. apply in_map_iff in H. destruct H as (i & <- & Hi). exists i, (gy g i). split; [exact Hi|]. apply located_ok. apply BD. exact Hi.
  Qed.
  Lemma fin_vertical good (g : drw) hist : fin good g hist -> vertical g.
  Proof. intros F s t H. destruct (n_wire F H) as (L1 & L2 & E & Y). exists (gx g s), (gy g s), (gx g t), (gy g t). split; [apply located_ok; exact L1|]. split; [apply located_ok; exact L2|]. auto. Qed.
  Lemma fin_sides good (g : drw) hist : fin good g hist -> on_sides g.
  Proof. intros F b Hb. destruct (n_side F Hb) as (S1 & S2). split; intros i Hi; exists (gx g i), (gy g i); (split; [apply located_ok, (n_box F Hb); unfold legs; apply in_or_app; auto|auto]). Qed.
  Lemma fin_disjoint (good : Prop) (g : drw) hist : fin good g hist -> good -> disjoint g.
  Proof.
    intros F Gd i j a b N Ea Eb. assert (Ba := n_box F (nth_error_In _ _ Ea)). assert (Bb := n_box F (nth_error_In _ _ Eb)).
    assert (K : forall a b, bounded g a -> bounded g b -> (forall x z, In x (bxs g a) -> In z (bxs g b) -> x + 1 < z) -> forall l r, left_edge g b l -> right_edge g a r -> r < l).
    { intros a0 b0 B1 B2 H l r ((x & X & El) & _) ((z & Z & Er) & _). apply (at_x_iff _ B2) in X. apply (at_x_iff _ B1) in Z. specialize (H _ _ Z X). lra. }
    destruct (Nat.lt_total i j) as [L|[L|L]]; [|congruence|].
    - destruct (n_bb F Gd L Ea Eb) as [H|[H|H]]; [right; left; exact H|right; right; left; apply K; auto|right; right; right; apply K; auto].
    - destruct (n_bb F Gd L Eb Ea) as [H|[H|H]]; [left; exact H|right; right; right; apply K; auto|right; right; left; apply K; auto].
  Qed.
  Lemma fin_clear (good : Prop) (g : drw) hist : fin good g hist -> good -> clear g.
  Proof.
    intros F Gd s t x y x' y' b Hw Ls Lt Hb. assert (Bb := n_box F Hb). destruct (located_inv Ls) as (_ & -> & ->). destruct (located_inv Lt) as (_ & -> & ->).
    destruct (n_wb F Gd Hw Hb) as [H|[H|[H|H]]]; [auto|auto| |].
    - right. right. left. intros l ((z & Z & El) & _). apply (at_x_iff _ Bb) in Z. specialize (H _ Z). q.
    - right. right. right. intros r ((z & Z & El) & _). apply (at_x_iff _ Bb) in Z. specialize (H _ Z). q.
  Qed.
  Lemma lims_edges good (g : drw) hist b : fin good g hist -> In b (dr_boxes g) -> exists l r, get_x_lims g b = Ok (l, r) /\ left_edge g b l /\ right_edge g b r.
  Proof.
    intros F Hb. assert (Bb := n_box F Hb). destruct (x_lims_ok Bb) as (l & r & E & (x1 & X1 & E1) & M1 & (x2 & X2 & E2) & M2). exists l, r. split; [exact E|]. split; split.
    - exists x1. split; [apply (at_x_iff _ Bb); exact X1|]. rewrite E1. unfold LEDGE. reflexivity.
    - intros x Hx. apply (at_x_iff _ Bb) in Hx. apply M1. exact Hx.
    - exists x2. split; [apply (at_x_iff _ Bb); exact X2|]. rewrite E2. unfold LEDGE. reflexivity.
    - intros x Hx. apply (at_x_iff _ Bb) in Hx. apply M2. exact Hx.
  Qed.
End Lay.
