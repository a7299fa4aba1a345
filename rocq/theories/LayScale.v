(** Proofs about the layout of drawings: scaling. *)
From Coq Require Import QArith Lqa Lia.
From Verif Require Import PyBase DiagModel GDiag GDiagSpec LayModel LaySpec LayFacts LayInv LayFinal LayEnd LayDone.
Close Scope string_scope. Set Implicit Arguments. Unset Strict Implicit.
Open Scope Q_scope.

Section Lay.
  Variables (A B : Type).
  Notation drw := (drawable A B).
  (** endpoints that are those of [es0], at heights [f i] up to the equality of rationals *)
  Definition like (es0 es : list (wire_end A)) (f : nat -> Q) : Prop :=
    map (fun e => (we_kind e, we_obj e, we_x e)) es = map (fun e => (we_kind e, we_obj e, we_x e)) es0 /\ forall i e, nth_error es i = Some e -> we_y e == f i.
  Lemma set_like es0 es f i y : like es0 es f -> (i < List.length es0)%nat -> y == f i -> exists es', set_y i y es = Ok es' /\ like es0 es' f.
  Proof.
    intros (M & Y) L E. assert (LE : List.length es = List.length es0) by (assert (K := f_equal (@List.length _) M); rewrite !map_length in K; exact K).
    unfold set_y. destruct (nth_error es i) as [e|] eqn:N; [|apply nth_error_None in N; lia]. eexists. split; [reflexivity|].
    assert (SP : es = firstn i es ++ e :: skipn (S i) es) by ((rewrite <- (firstn_skipn i es) at 1; f_equal; clear - N; revert i N; induction es as [|x es IH]; intros [|i] N; try discriminate; cbn [nth_error] in N; [injection N as ->; reflexivity|exact (IH i N)])).
    split.
    - rewrite <- M. rewrite SP at 3. rewrite !map_app. cbn [map we_kind we_obj we_x]. reflexivity.
    - intros j e' Hj. destruct (Nat.lt_total j i) as [C|[->|C]].
      + rewrite nth_error_app1 in Hj by (rewrite firstn_length; lia). apply Y. rewrite SP. rewrite nth_error_app1 by (rewrite firstn_length; lia). exact Hj.
      + rewrite nth_error_app2 in Hj by (rewrite firstn_length; lia). rewrite firstn_length, (Nat.min_l i) in Hj by lia. rewrite Nat.sub_diag in Hj. injection Hj as <-. exact E.
      + rewrite nth_error_app2 in Hj by (rewrite firstn_length; lia). rewrite firstn_length, (Nat.min_l i) in Hj by lia. destruct (j - i)%nat as [|k] eqn:EK; [lia|]. cbn [nth_error] in Hj. apply Y. rewrite SP. rewrite nth_error_app2 by (rewrite firstn_length; lia). rewrite firstn_length, (Nat.min_l i) by lia. rewrite EK. exact Hj.
  Qed.
  Lemma sets_like y l : forall es0 es f, like es0 es f -> (forall i, In i l -> (i < List.length es0)%nat /\ y == f i) -> exists es', foldM (fun es i => set_y i y es) l es = Ok es' /\ like es0 es' f.
  Proof.
    induction l as [|i l IH]; intros es0 es f LK H; cbn [foldM]; [eauto|]. destruct (H i (or_introl eq_refl)) as (L & E). destruct (set_like LK L E) as (es' & -> & LK'). cbn [bind]. apply (IH es0); [exact LK'|]. intros j Hj. apply H. right. exact Hj.
  Qed.
  Lemma scale_ok (g : drw) scale pad : on_sides g -> dr_boxes g <> [] \/ dr_ends g <> [] -> exists g', scale_and_pad g scale pad = Ok g' /\ rescaled g g' scale pad.
  Proof.
    intros OS N. assert (NX : all_x g <> []) by (unfold all_x; destruct N as [N|N]; destruct (dr_boxes g), (dr_ends g); cbn; congruence). assert (NY : all_y g <> []) by (unfold all_y; destruct N as [N|N]; destruct (dr_boxes g), (dr_ends g); cbn; congruence).
    unfold scale_and_pad. destruct (py_min_ok NX) as (lx & -> & Ix & Mx). cbn [bind]. destruct (py_min_ok NY) as (ly & -> & Iy & My). cbn [bind]. cbv zeta.
    set (fx := fun x => lx + (x - lx) * fst scale + fst pad). set (fy := fun y => ly + (y - ly) * snd scale + snd pad).
    match goal with |- context [foldM ?f _ (_, ?e)] => set (F := f); set (es0 := e) end.
    set (f := fun i => fy (gy g i)).
    assert (LE : List.length es0 = size g) by (unfold es0; rewrite map_length; reflexivity).
    assert (LK0 : like es0 es0 f).
    { split; [reflexivity|]. intros i e H. unfold es0 in H. rewrite nth_error_map in H. destruct (nth_error (dr_ends g) i) as [e0|] eqn:E0; [|discriminate]. injection H as <-. cbn [we_y]. unfold f, gy. rewrite (nth_error_nth _ _ _ (map_nth_error (@we_y A) _ _ E0)). reflexivity. }
    assert (LOOP : forall bs, (forall b, In b bs -> In b (dr_boxes g)) -> forall done es, like es0 es f -> exists es', foldM F bs (done, es) = Ok (done ++ map (fun b => BN (bn_obj b) (fx (bn_x b)) (fy (bn_y b)) (bn_dom b) (bn_cod b)) bs, es') /\ like es0 es' f).
    { induction bs as [|b bs IH]; intros IN done es LK; cbn [foldM map].
      - exists es. rewrite app_nil_r. split; [reflexivity|exact LK].
      - destruct (OS b (IN b (or_introl eq_refl))) as (S1 & S2).
        assert (P1 : forall i, In i (bn_dom b) -> (i < List.length es0)%nat /\ fy (bn_y b) + HALF_BOX_HEIGHT * snd scale == f i).
        { intros i Hi. destruct (S1 i Hi) as (x & y & LO & E). destruct (located_inv LO) as (L & -> & ->). split; [rewrite LE; exact L|]. unfold f, fy, HALF_BOX_HEIGHT. rewrite E. ring. }
        assert (P2 : forall i, In i (bn_cod b) -> (i < List.length es0)%nat /\ fy (bn_y b) - HALF_BOX_HEIGHT * snd scale == f i).
        { intros i Hi. destruct (S2 i Hi) as (x & y & LO & E). destruct (located_inv LO) as (L & -> & ->). split; [rewrite LE; exact L|]. unfold f, fy, HALF_BOX_HEIGHT. rewrite E. ring. }
        destruct (sets_like LK P1) as (es1 & E1 & LK1). destruct (sets_like LK1 P2) as (es2 & E2 & LK2).
        assert (EF : F (done, es) b = Ok (done ++ [BN (bn_obj b) (fx (bn_x b)) (fy (bn_y b)) (bn_dom b) (bn_cod b)], es2)) by (unfold F, fx, fy; unfold fy in E1, E2; cbn [bn_y bn_dom bn_cod]; rewrite E1; cbn [bind]; rewrite E2; reflexivity).
        rewrite EF. cbn [bind]. destruct (IH (fun b H => IN b (or_intror H)) (done ++ [BN (bn_obj b) (fx (bn_x b)) (fy (bn_y b)) (bn_dom b) (bn_cod b)]) es2 LK2) as (es' & -> & LK'). exists es'. split; [|exact LK']. rewrite <- app_assoc. reflexivity. }
    destruct (LOOP (dr_boxes g) (fun b H => H) [] es0 LK0) as (es' & -> & (LM & LY)). cbn [bind app]. eexists. split; [reflexivity|]. constructor; cbn [dr_wires dr_ends dr_boxes].
    - reflexivity.
    - assert (K := f_equal (map fst) LM). unfold es0 in K. rewrite !map_map in K. exact K.
    - rewrite map_map. reflexivity.
    - exists lx, ly. unfold node_x, node_y. unfold all_x in *. unfold all_y in *. split; [exists lx; split; [apply in_app_or; exact Ix|reflexivity]|]. split; [intros x Hx; apply Mx, in_or_app; exact Hx|]. split; [exists ly; split; [apply in_app_or; exact Iy|reflexivity]|]. split; [intros y Hy; apply My, in_or_app; exact Hy|]. split.
      + intros i e e' He He'. split.
        * assert (K := map_nth_error (fun e => (we_kind e, we_obj e, we_x e)) _ _ He'). rewrite LM in K. unfold es0 in K. rewrite map_map in K. cbn [we_kind we_obj we_x] in K. rewrite nth_error_map, He in K. cbn [option_map] in K. injection K as _ _ K. unfold affine. rewrite <- K. reflexivity.
        * unfold affine. rewrite (LY _ _ He'). unfold f, gy. rewrite (nth_error_nth _ _ _ (map_nth_error (@we_y A) _ _ He)). reflexivity.
      + intros k b b' Hb Hb'. rewrite nth_error_map, Hb in Hb'. injection Hb' as <-. split; reflexivity.
  Qed.
End Lay.
