(** Proofs about the layout of drawings. *)
From Coq Require Import QArith Lqa Lia.
From Verif Require Import PyBase DiagModel GDiag GDiagSpec LayModel LaySpec.
Close Scope string_scope. Set Implicit Arguments. Unset Strict Implicit.
Open Scope Q_scope.
Ltac q := unfold Qdiv, X_SPACING, LEDGE, HALF_BOX_HEIGHT in *; change (/ 2) with (1 # 2) in *; lra.

Lemma qltb_lt a b : qltb a b = true <-> a < b.
Proof. unfold qltb. rewrite negb_true_iff. split; intro H; [apply Qnot_le_lt; intro E; apply Qle_bool_iff in E; congruence|]. destruct (Qle_bool b a) eqn:E; [|reflexivity]. apply Qle_bool_iff in E. lra. Qed.
Lemma qltb_ge a b : qltb a b = false <-> b <= a.
Proof. unfold qltb. rewrite negb_false_iff. apply Qle_bool_iff. Qed.
Lemma qle_gt a b : Qle_bool a b = false -> b < a.
Proof. intro H. apply Qnot_le_lt. intro E. apply Qle_bool_iff in E. congruence. Qed.
Lemma min2_spec a b : (py_min2 a b = a \/ py_min2 a b = b) /\ py_min2 a b <= a /\ py_min2 a b <= b.
Proof. unfold py_min2. destruct (qltb b a) eqn:E; [apply qltb_lt in E|apply qltb_ge in E]; (split; [auto|]); lra. Qed.
Lemma max2_spec a b : (py_max2 a b = a \/ py_max2 a b = b) /\ a <= py_max2 a b /\ b <= py_max2 a b.
Proof. unfold py_max2. destruct (qltb a b) eqn:E; [apply qltb_lt in E|apply qltb_ge in E]; (split; [auto|]); lra. Qed.
Lemma fold_min l : forall x, In (fold_left py_min2 l x) (x :: l) /\ forall y, In y (x :: l) -> fold_left py_min2 l x <= y.
Proof.
  induction l as [|z l IH]; intro x; cbn [fold_left].
  - split; [left; reflexivity|]. intros y [<-|[]]. lra.
  - destruct (IH (py_min2 x z)) as (I & M). destruct (min2_spec x z) as (C & M1 & M2). split.
    + destruct I as [I|I]; [|right; right; exact I]. rewrite <- I. destruct C as [-> | ->]; [left|right; left]; reflexivity.
    + assert (M0 := M _ (or_introl eq_refl)). intros y [<-|[<-|Y]]; [lra|lra|]. apply M. right. exact Y.
Qed.
Lemma fold_max l : forall x, In (fold_left py_max2 l x) (x :: l) /\ forall y, In y (x :: l) -> y <= fold_left py_max2 l x.
Proof.
  induction l as [|z l IH]; intro x; cbn [fold_left].
  - split; [left; reflexivity|]. intros y [<-|[]]. lra.
  - destruct (IH (py_max2 x z)) as (I & M). destruct (max2_spec x z) as (C & M1 & M2). split.
    + destruct I as [I|I]; [|right; right; exact I]. rewrite <- I. destruct C as [-> | ->]; [left|right; left]; reflexivity.
    + assert (M0 := M _ (or_introl eq_refl)). intros y [<-|[<-|Y]]; [lra|lra|]. apply M. right. exact Y.
Qed.
Lemma py_min_ok l : l <> [] -> exists m, py_min l = Ok m /\ In m l /\ forall y, In y l -> m <= y.
Proof. destruct l as [|x l]; [congruence|]. intros _. destruct (fold_min l x). eexists. split; [reflexivity|]. auto. Qed.
Lemma py_max_ok l : l <> [] -> exists m, py_max l = Ok m /\ In m l /\ forall y, In y l -> y <= m.
Proof. destruct l as [|x l]; [congruence|]. intros _. destruct (fold_max l x). eexists. split; [reflexivity|]. auto. Qed.
Lemma foldM_app X Y (f : X -> Y -> res X) l1 : forall l2 s, foldM f (l1 ++ l2) s = bind (foldM f l1 s) (fun s' => foldM f l2 s').
Proof. induction l1 as [|y l1 IH]; intros l2 s; cbn [app foldM]; [reflexivity|]. destruct (f s y); cbn [bind]; auto. Qed.

(** maps that move points apart *)
Definition grows (f : Q -> Q) : Prop := forall x y, x <= y -> y - x <= f y - f x.
Lemma grows_id : grows (fun x => x). Proof. intros x y H. lra. Qed.
Lemma grows_trans f h : grows f -> grows h -> grows (fun x => h (f x)).
Proof. intros F H x y L. specialize (F x y L). assert (f x <= f y) by lra. specialize (H _ _ H0). lra. Qed.
Lemma grows_eq f x y : grows f -> x == y -> f x == f y.
Proof. intros F E. assert (F1 := F x y). assert (F2 := F y x). lra. Qed.
Lemma grows_left limit pad : 0 <= pad -> grows (fun z => if Qle_bool z limit then z - pad else z).
Proof.
  intros P x y L. destruct (Qle_bool x limit) eqn:Ex; destruct (Qle_bool y limit) eqn:Ey; try (apply Qle_bool_iff in Ex); try (apply Qle_bool_iff in Ey); try (apply qle_gt in Ex); try (apply qle_gt in Ey); lra.
Qed.
Lemma grows_right limit pad : 0 <= pad -> grows (fun z => if Qle_bool limit z then z + pad else z).
Proof.
  intros P x y L. destruct (Qle_bool limit x) eqn:Ex; destruct (Qle_bool limit y) eqn:Ey; try (apply Qle_bool_iff in Ex); try (apply Qle_bool_iff in Ey); try (apply qle_gt in Ex); try (apply qle_gt in Ey); lra.
Qed.

Section Lay.
  Variables (A B : Type) (bd bc : B -> list A) (quantum : B -> bool).
  Notation drw := (drawable A B).
  Definition gx (g : drw) (i : nat) : Q := nth i (map (@we_x A) (dr_ends g)) 0.
  Definition gy (g : drw) (i : nat) : Q := nth i (map (@we_y A) (dr_ends g)) 0.
  Definition size (g : drw) : nat := List.length (dr_ends g).
  Lemma get_ok X (l : list X) i d : (i < List.length l)%nat -> get l i = Ok (nth i l d).
  Proof. intro H. unfold get. rewrite (nth_error_nth' l d H). reflexivity. Qed.
  Lemma end_x_ok (g : drw) i : (i < size g)%nat -> end_x g i = Ok (gx g i).
  Proof.
    intro H. unfold end_x, get, gx, size in *. destruct (nth_error (dr_ends g) i) as [e|] eqn:E; [|apply nth_error_None in E; lia]. cbn [bind].
    rewrite (nth_error_nth _ _ _ (map_nth_error (@we_x A) _ _ E)). reflexivity.
  Qed.
  Lemma located_ok (g : drw) i : (i < size g)%nat -> located g i (gx g i) (gy g i).
  Proof.
    intro H. unfold located, gx, gy, size in *. destruct (nth_error (dr_ends g) i) as [e|] eqn:E; [|apply nth_error_None in E; lia]. exists e. split; [reflexivity|].
    rewrite (nth_error_nth _ _ _ (map_nth_error (@we_x A) _ _ E)), (nth_error_nth _ _ _ (map_nth_error (@we_y A) _ _ E)). auto.
  Qed.
  Lemma located_inv (g : drw) i x y : located g i x y -> (i < size g)%nat /\ x = gx g i /\ y = gy g i.
  Proof.
    intros (e & E & <- & <-). split; [apply nth_error_Some; rewrite E; discriminate|]. unfold gx, gy.
    rewrite (nth_error_nth _ _ _ (map_nth_error (@we_x A) _ _ E)), (nth_error_nth _ _ _ (map_nth_error (@we_y A) _ _ E)). auto.
  Qed.
  Lemma gx_map f (g : drw) i : (i < size g)%nat -> gx (map_x f g) i = f (gx g i).
  Proof.
    intro H. unfold gx, map_x, size in *. cbn [dr_ends]. rewrite map_map. cbn [we_x]. destruct (nth_error (dr_ends g) i) as [e|] eqn:E; [|apply nth_error_None in E; lia].
    rewrite (nth_error_nth _ _ _ (map_nth_error (fun e => f (we_x e)) _ _ E)), (nth_error_nth _ _ _ (map_nth_error (@we_x A) _ _ E)). reflexivity.
  Qed.
  Lemma gy_map f (g : drw) i : gy (map_x f g) i = gy g i.
  Proof. unfold gy, map_x. cbn [dr_ends]. rewrite map_map. reflexivity. Qed.
  Lemma size_map f (g : drw) : size (map_x f g) = size g.
  Proof. unfold size, map_x. cbn [dr_ends]. apply map_length. Qed.

  (** *** adding a box *)
  Definition dom_ends (g : drw) (scan : list nat) (off : nat) (y : Q) (k : nat) (l : list A) : list (wire_end A) :=
    map (fun '(i, obj) => WE KDom obj (gx g (nth (off + i) scan 0%nat)) (y + HALF_BOX_HEIGHT)) (enum k l).
  Definition cod_x (g : drw) (scan : list nat) (box : B) (off : nat) (x : Q) (i : nat) : Q :=
    if quantum box && (List.length (bd box) =? List.length (bc box))%nat then gx g (nth (off + i) scan 0%nat) else x + X_SPACING * (qnat i - qnat (List.length (tl (bc box))) / 2).
  Definition cod_ends (g : drw) (scan : list nat) (box : B) (off : nat) (x y : Q) (k : nat) (l : list A) : list (wire_end A) :=
    map (fun '(i, obj) => WE KCod obj (cod_x g scan box off x i) (y - HALF_BOX_HEIGHT)) (enum k l).
  Definition with_box (g : drw) (scan : list nat) (box : B) (off : nat) (x y : Q) : drw :=
    let E := size g in let nd := List.length (bd box) in let nc := List.length (bc box) in
    DD (dr_boxes g ++ [BN box x y (seq E nd) (seq (E + nd) nc)]) (dr_ends g ++ dom_ends g scan off y 0 (bd box) ++ cod_ends g scan box off x y 0 (bc box))
       (dr_wires g ++ combine (firstn nd (skipn off scan)) (seq E nd)).
  Definition next_scan (g : drw) (scan : list nat) (box : B) (off : nat) : list nat :=
    firstn off scan ++ seq (size g + List.length (bd box)) (List.length (bc box)) ++ skipn (off + List.length (bd box)) scan.
  Lemma gx_ext (g : drw) es ws bs i : (i < size g)%nat -> gx (DD bs (dr_ends g ++ es) ws) i = gx g i.
  Proof. intro H. unfold gx, size in *. cbn [dr_ends]. rewrite map_app, app_nth1; [reflexivity|]. rewrite map_length. exact H. Qed.
  Lemma enum_length X (l : list X) : forall k, List.length (enum k l) = List.length l.
  Proof. induction l as [|x l IH]; intro k; cbn [enum List.length]; [reflexivity|]. rewrite IH. reflexivity. Qed.
  Lemma nth_skipn X (l : list X) d : forall n i, nth i (skipn n l) d = nth (n + i) l d.
  Proof. induction l as [|x l IH]; intros [|n] i; cbn [skipn Nat.add nth]; auto; destruct i; reflexivity. Qed.
  Lemma skipn_nth X (l : list X) n d : (n < List.length l)%nat -> skipn n l = nth n l d :: skipn (S n) l.
  Proof. revert n. induction l as [|x l IH]; intros [|n] H; cbn [List.length] in H; try lia; cbn [skipn nth]; auto. apply IH. lia. Qed.
  Lemma dom_loop (g : drw) scan off y l : (forall i, In i scan -> (i < size g)%nat) -> forall k extra ws ds, (off + k + List.length l <= List.length scan)%nat ->
    foldM (fun p '(i, obj) => let '(g, ds) := p in do nbr_idx <- get scan (off + i); do x <- end_x g nbr_idx;
             let '(g, wire_idx) := add_wire_end g (WE KDom obj x (y + HALF_BOX_HEIGHT)) in Ok (add_wire g nbr_idx wire_idx, ds ++ [wire_idx]))
      (enum k l) (DD (dr_boxes g) (dr_ends g ++ extra) ws, ds) =
    Ok (DD (dr_boxes g) (dr_ends g ++ extra ++ dom_ends g scan off y k l) (ws ++ combine (firstn (List.length l) (skipn (off + k) scan)) (seq (size g + List.length extra) (List.length l))), ds ++ seq (size g + List.length extra) (List.length l)).
  Proof.
    intro IN. match goal with |- forall k extra ws ds, _ -> foldM ?f _ _ = _ => set (F := f) end.
    induction l as [|a l IH]; intros k extra ws ds LE; cbn [enum foldM List.length].
    - cbn [dom_ends enum map firstn combine seq]. rewrite !app_nil_r. reflexivity.
    - cbn [List.length] in LE. assert (L0 : (nth (off + k) scan 0 < size g)%nat) by (apply IN, nth_In; lia).
      assert (E : F (DD (dr_boxes g) (dr_ends g ++ extra) ws, ds) (k, a) =
        Ok (DD (dr_boxes g) (dr_ends g ++ extra ++ [WE KDom a (gx g (nth (off + k) scan 0%nat)) (y + HALF_BOX_HEIGHT)]) (ws ++ [(nth (off + k) scan 0%nat, size g + List.length extra)%nat]), ds ++ [(size g + List.length extra)%nat])).
      { unfold F. rewrite (@get_ok _ scan (off + k) 0%nat) by lia. cbn [bind]. rewrite end_x_ok by (unfold size in *; cbn [dr_ends]; rewrite app_length; lia).
        rewrite gx_ext by exact L0. cbn [bind]. unfold add_wire_end, add_wire. cbn [dr_boxes dr_ends dr_wires]. rewrite <- app_assoc, app_length. reflexivity. }
      rewrite E. cbn [bind]. rewrite IH by lia. rewrite !app_length. cbn [List.length]. f_equal. f_equal.
      + f_equal.
        * rewrite <- !app_assoc. reflexivity.
        * rewrite (@skipn_nth _ scan (off + k) 0%nat) by lia. cbn [firstn seq combine]. rewrite <- app_assoc. cbn [app]. 
          replace (S (off + k)) with (off + S k)%nat by lia. replace (S (size g + List.length extra)) with (size g + (List.length extra + 1))%nat by lia. reflexivity.
      + rewrite <- app_assoc. cbn [seq app]. replace (S (size g + List.length extra)) with (size g + (List.length extra + 1))%nat by lia. reflexivity.
  Qed.
  Lemma cod_loop (g : drw) scan box off x y l : (forall i, In i scan -> (i < size g)%nat) -> (List.length (bd box) + off <= List.length scan)%nat -> forall k extra ws (bs : list (box_node B)) cs, (k + List.length l <= List.length (bc box))%nat ->
    foldM (fun p '(i, obj) => let '(g, cs) := p in
             do x <- (if quantum box && (List.length (bd box) =? List.length (bc box))%nat then do nbr_idx <- get scan (off + i); end_x g nbr_idx
                      else Ok (x + X_SPACING * (qnat i - qnat (List.length (tl (bc box))) / 2)));
             let '(g, wire_idx) := add_wire_end g (WE KCod obj x (y - HALF_BOX_HEIGHT)) in Ok (g, cs ++ [wire_idx]))
      (enum k l) (DD bs (dr_ends g ++ extra) ws, cs) =
    Ok (DD bs (dr_ends g ++ extra ++ cod_ends g scan box off x y k l) ws, cs ++ seq (size g + List.length extra) (List.length l)).
  Proof.
    intros IN LS. match goal with |- forall k extra ws bs cs, _ -> foldM ?f _ _ = _ => set (F := f) end.
    induction l as [|a l IH]; intros k extra ws bs cs LE; cbn [enum foldM List.length].
    - cbn [cod_ends enum map seq]. rewrite !app_nil_r. reflexivity.
    - cbn [List.length] in LE.
      assert (E : F (DD bs (dr_ends g ++ extra) ws, cs) (k, a) = Ok (DD bs (dr_ends g ++ extra ++ [WE KCod a (cod_x g scan box off x k) (y - HALF_BOX_HEIGHT)]) ws, cs ++ [(size g + List.length extra)%nat])).
      { unfold F, cod_x. destruct (quantum box && (List.length (bd box) =? List.length (bc box))%nat) eqn:Eq.
        - apply andb_true_iff in Eq as (_ & Eq). apply Nat.eqb_eq in Eq.
          rewrite (@get_ok _ scan (off + k) 0%nat) by lia. cbn [bind]. assert (L0 : (nth (off + k) scan 0 < size g)%nat) by (apply IN, nth_In; lia).
          rewrite end_x_ok by (unfold size in *; cbn [dr_ends]; rewrite app_length; lia). rewrite gx_ext by exact L0. cbn [bind]. unfold add_wire_end. cbn [dr_boxes dr_ends dr_wires]. rewrite <- app_assoc, app_length. reflexivity.
        - cbn [bind]. unfold add_wire_end. cbn [dr_boxes dr_ends dr_wires]. rewrite <- app_assoc, app_length. reflexivity. }
      rewrite E. cbn [bind]. rewrite IH by lia. rewrite !app_length. cbn [List.length]. f_equal. f_equal.
      + f_equal. rewrite <- !app_assoc. reflexivity.
      + rewrite <- app_assoc. cbn [seq app]. replace (S (size g + List.length extra)) with (size g + (List.length extra + 1))%nat by lia. reflexivity.
  Qed.
  Lemma dom_ends_length (g : drw) scan off y k l : List.length (dom_ends g scan off y k l) = List.length l.
  Proof. unfold dom_ends. rewrite map_length, enum_length. reflexivity. Qed.
  Lemma cod_ends_length (g : drw) scan box off x y k l : List.length (cod_ends g scan box off x y k l) = List.length l.
  Proof. unfold cod_ends. rewrite map_length, enum_length. reflexivity. Qed.
  Lemma add_box_ok (g : drw) scan box off x y : (forall i, In i scan -> (i < size g)%nat) -> (off + List.length (bd box) <= List.length scan)%nat ->
    add_box bd bc quantum g scan box off x y = Ok (with_box g scan box off x y, next_scan g scan box off).
  Proof.
    intros IN LE. unfold add_box. assert (D := @dom_loop g scan off y (bd box) IN 0%nat [] (dr_wires g) []). rewrite app_nil_r in D. destruct g as [bs es ws]. cbn [dr_boxes dr_ends dr_wires] in *.
    rewrite D by lia. cbn [bind List.length app]. rewrite <- plus_n_O.
    rewrite (@cod_loop (DD bs es ws) scan box off x y (bc box) IN) by lia. cbn [bind dr_boxes dr_ends dr_wires app]. unfold with_box, next_scan. cbn [dr_boxes dr_ends dr_wires].
    rewrite dom_ends_length, <- !plus_n_O. reflexivity.
  Qed.

  Lemma size_box (g : drw) scan box off x y : size (with_box g scan box off x y) = (size g + List.length (bd box) + List.length (bc box))%nat.
  Proof. unfold size, with_box. cbn [dr_ends]. rewrite !app_length, dom_ends_length, cod_ends_length. lia. Qed.
  Lemma nth_enum X Y (f : nat * X -> Y) (l : list X) d : forall k i, (i < List.length l)%nat -> exists a, nth i (map f (enum k l)) d = f ((k + i)%nat, a).
  Proof.
    induction l as [|a l IH]; intros k i H; cbn [List.length] in H; [lia|]. destruct i as [|i]; cbn [enum map nth].
    - exists a. rewrite <- plus_n_O. reflexivity.
    - destruct (IH (S k) i) as (b & E); [lia|]. exists b. rewrite E. f_equal. f_equal. lia.
  Qed.
  Lemma gx_old (g : drw) scan box off x y i : (i < size g)%nat -> gx (with_box g scan box off x y) i = gx g i.
  Proof. intro H. apply gx_ext. exact H. Qed.
  Lemma gy_old (g : drw) scan box off x y i : (i < size g)%nat -> gy (with_box g scan box off x y) i = gy g i.
  Proof. intro H. unfold gy, with_box, size in *. cbn [dr_ends]. rewrite map_app, app_nth1; [reflexivity|]. rewrite map_length. exact H. Qed.
  Lemma gx_dom (g : drw) scan box off x y i : (i < List.length (bd box))%nat -> gx (with_box g scan box off x y) (size g + i) = gx g (nth (off + i) scan 0%nat).
  Proof.
    intro H. unfold gx at 1, with_box, size. cbn [dr_ends]. rewrite !map_app, app_nth2; rewrite map_length; [|lia]. rewrite app_nth1 by (rewrite map_length, dom_ends_length; lia).
    unfold dom_ends. rewrite map_map. replace (List.length (dr_ends g) + i - List.length (dr_ends g))%nat with i by lia.
    destruct (@nth_enum _ _ (fun p => we_x (let '(i0, obj) := p in WE KDom obj (gx g (nth (off + i0) scan 0%nat)) (y + HALF_BOX_HEIGHT))) (bd box) 0 0%nat i H) as (a & ->). reflexivity.
  Qed.
  Lemma gy_dom (g : drw) scan box off x y i : (i < List.length (bd box))%nat -> gy (with_box g scan box off x y) (size g + i) = y + HALF_BOX_HEIGHT.
  Proof.
    intro H. unfold gy at 1, with_box, size. cbn [dr_ends]. rewrite !map_app, app_nth2; rewrite map_length; [|lia]. rewrite app_nth1 by (rewrite map_length, dom_ends_length; lia).
    unfold dom_ends. rewrite map_map. replace (List.length (dr_ends g) + i - List.length (dr_ends g))%nat with i by lia.
    destruct (@nth_enum _ _ (fun p => we_y (let '(i0, obj) := p in WE KDom obj (gx g (nth (off + i0) scan 0%nat)) (y + HALF_BOX_HEIGHT))) (bd box) 0 0%nat i H) as (a & ->). reflexivity.
  Qed.
  Lemma gx_cod (g : drw) scan box off x y i : (i < List.length (bc box))%nat -> gx (with_box g scan box off x y) (size g + List.length (bd box) + i) = cod_x g scan box off x i.
  Proof.
    intro H. unfold gx at 1, with_box, size. cbn [dr_ends]. rewrite !map_app, app_nth2; rewrite map_length; [|lia]. rewrite app_nth2; rewrite map_length, dom_ends_length; [|lia].
    unfold cod_ends. rewrite map_map. replace (List.length (dr_ends g) + List.length (bd box) + i - List.length (dr_ends g) - List.length (bd box))%nat with i by lia.
    destruct (@nth_enum _ _ (fun p => we_x (let '(i0, obj) := p in WE KCod obj (cod_x g scan box off x i0) (y - HALF_BOX_HEIGHT))) (bc box) 0 0%nat i H) as (a & ->). reflexivity.
  Qed.
  Lemma gy_cod (g : drw) scan box off x y i : (i < List.length (bc box))%nat -> gy (with_box g scan box off x y) (size g + List.length (bd box) + i) = y - HALF_BOX_HEIGHT.
  Proof.
    intro H. unfold gy at 1, with_box, size. cbn [dr_ends]. rewrite !map_app, app_nth2; rewrite map_length; [|lia]. rewrite app_nth2; rewrite map_length, dom_ends_length; [|lia].
    unfold cod_ends. rewrite map_map. replace (List.length (dr_ends g) + List.length (bd box) + i - List.length (dr_ends g) - List.length (bd box))%nat with i by lia.
    destruct (@nth_enum _ _ (fun p => we_y (let '(i0, obj) := p in WE KCod obj (cod_x g scan box off x i0) (y - HALF_BOX_HEIGHT))) (bc box) 0 0%nat i H) as (a & ->). reflexivity.
  Qed.
  Lemma nth_next (g : drw) scan box off i : (off + List.length (bd box) <= List.length scan)%nat ->
    nth i (next_scan g scan box off) 0%nat = if (i <? off)%nat then nth i scan 0%nat else if (i <? off + List.length (bc box))%nat then
      if (i - off <? List.length (bc box))%nat then (size g + List.length (bd box) + (i - off))%nat else 0%nat else nth (i + List.length (bd box) - List.length (bc box)) scan 0%nat.
  Proof.
    intro H. unfold next_scan. assert (L : List.length (firstn off scan) = off) by (rewrite firstn_length; lia). destruct (i <? off)%nat eqn:E1; [apply Nat.ltb_lt in E1|apply Nat.ltb_ge in E1].
    - rewrite app_nth1 by lia. clear L. assert (E : nth i (firstn off scan ++ skipn off scan) 0%nat = nth i scan 0%nat) by (rewrite firstn_skipn; reflexivity). rewrite app_nth1 in E; [exact E|]. rewrite firstn_length. lia.
    - rewrite app_nth2 by lia. rewrite L. destruct (i <? off + List.length (bc box))%nat eqn:E2; [apply Nat.ltb_lt in E2|apply Nat.ltb_ge in E2].
      + rewrite app_nth1 by (rewrite seq_length; lia). assert (E3 : (i - off <? List.length (bc box))%nat = true) by (apply Nat.ltb_lt; lia). rewrite E3. apply seq_nth. lia.
      + rewrite app_nth2 by (rewrite seq_length; lia). rewrite seq_length, nth_skipn. f_equal. lia.
  Qed.
  Lemma next_length (g : drw) scan box off : (off + List.length (bd box) <= List.length scan)%nat ->
    List.length (next_scan g scan box off) = (List.length scan + List.length (bc box) - List.length (bd box))%nat.
  Proof. intro H. unfold next_scan. rewrite !app_length, firstn_length, seq_length, skipn_length. lia. Qed.

  (** *** the horizontal extent of a box *)
  Definition legs (b : box_node B) : list nat := bn_dom b ++ bn_cod b.
  Definition bxs (g : drw) (b : box_node B) : list Q := match legs b with [] => [bn_x b] | l => map (gx g) l end.
  Definition bounded (g : drw) (b : box_node B) : Prop := forall i, In i (legs b) -> (i < size g)%nat.
  Lemma mapM_end_x (g : drw) l : (forall i, In i l -> (i < size g)%nat) -> mapM (end_x g) l = Ok (map (gx g) l).
  Proof.
    induction l as [|i l IH]; intro H; cbn [mapM map]; [reflexivity|]. rewrite end_x_ok by (apply H; left; reflexivity). cbn [bind]. rewrite IH; [reflexivity|]. intros j J. apply H. right. exact J.
  Qed.
  Lemma bxs_nonempty (g : drw) b : bxs g b <> [].
  Proof. unfold bxs. destruct (legs b); discriminate. Qed.
  Lemma x_lims_ok (g : drw) b : bounded g b -> exists l r, get_x_lims g b = Ok (l, r) /\
    (exists x, In x (bxs g b) /\ l = x - LEDGE) /\ (forall x, In x (bxs g b) -> l <= x - LEDGE) /\ (exists x, In x (bxs g b) /\ r = x + LEDGE) /\ (forall x, In x (bxs g b) -> x + LEDGE <= r).
  Proof.
    intro H. unfold get_x_lims. rewrite mapM_end_x by (intros i I; apply H; unfold legs; apply in_or_app; apply in_app_or in I; tauto). cbn [bind]. cbv zeta.
    set (l := match map (gx g) (bn_cod b ++ bn_dom b) with [] => [bn_x b] | _ => map (gx g) (bn_cod b ++ bn_dom b) end).
    assert (El : forall x, In x l <-> In x (bxs g b)).
    { intro x. unfold l, bxs, legs. assert (P : forall y, In y (map (gx g) (bn_cod b ++ bn_dom b)) <-> In y (map (gx g) (bn_dom b ++ bn_cod b))) by (intro y; rewrite !map_app, !in_app_iff; tauto).
      destruct (bn_cod b) as [|c cs]; destruct (bn_dom b) as [|e es]; cbn [map app] in *; try reflexivity; exact (P x). }
    assert (Nl : l <> []) by (assert (N := bxs_nonempty (g := g) (b := b)); destruct (bxs g b) as [|x ?]; [congruence|]; intro E; specialize (El x); rewrite E in El; cbn in El; tauto).
    destruct (py_min_ok Nl) as (lo & Elo & Ilo & Mlo). destruct (py_max_ok Nl) as (hi & Ehi & Ihi & Mhi). rewrite Elo, Ehi. cbn [bind]. exists (lo - LEDGE), (hi + LEDGE). split; [reflexivity|].
    split; [exists lo; split; [apply El; exact Ilo|reflexivity]|]. split; [intros x Hx; apply El in Hx; apply Mlo in Hx; q|]. split; [exists hi; split; [apply El; exact Ihi|reflexivity]|]. intros x Hx. apply El in Hx. apply Mhi in Hx. q.
  Qed.
  Lemma next_y_ok (g : drw) l r : (forall b, In b (dr_boxes g) -> bounded g b) -> exists y, next_y g l r = Ok y /\ y <= 0 /\
    forall b, In b (dr_boxes g) -> y + 1 <= bn_y b \/ (forall x, In x (bxs g b) -> r < x - LEDGE) \/ (forall x, In x (bxs g b) -> x + LEDGE < l).
  Proof.
    unfold next_y. intro H. match goal with |- context [foldM ?f _ _] => set (F := f) end.
    assert (G : forall bs y0, (forall b, In b bs -> bounded g b) -> exists y, foldM F bs y0 = Ok y /\ y <= y0 /\
      forall b, In b bs -> y + 1 <= bn_y b \/ (forall x, In x (bxs g b) -> r < x - LEDGE) \/ (forall x, In x (bxs g b) -> x + LEDGE < l)).
    { induction bs as [|b bs IH]; intros y0 K; cbn [foldM].
      - exists y0. split; [reflexivity|]. split; [lra|]. intros b [].
      - destruct (x_lims_ok (K b (or_introl eq_refl))) as (bl & br & E & (x1 & X1 & E1) & M1 & (x2 & X2 & E2) & M2).
        assert (Eb : exists y1, F y0 b = Ok y1 /\ y1 <= y0 /\ (y1 + 1 <= bn_y b \/ (forall x, In x (bxs g b) -> r < x - LEDGE) \/ (forall x, In x (bxs g b) -> x + LEDGE < l))).
        { unfold F. rewrite E. cbn [bind]. destruct (qltb r bl) eqn:Q1; [apply qltb_lt in Q1|apply qltb_ge in Q1].
          - exists y0. split; [reflexivity|]. split; [lra|]. right. left. intros x Hx. apply M1 in Hx. lra.
          - destruct (qltb br l) eqn:Q2; [apply qltb_lt in Q2|apply qltb_ge in Q2].
            + exists y0. split; [reflexivity|]. split; [lra|]. right. right. intros x Hx. apply M2 in Hx. lra.
            + cbn [orb negb]. exists (py_min2 y0 (bn_y b - 1)). split; [reflexivity|]. destruct (min2_spec y0 (bn_y b - 1)) as (_ & L1 & L2). split; [exact L1|]. left. lra. }
        destruct Eb as (y1 & -> & L1 & C1). cbn [bind]. destruct (IH y1) as (y & -> & L2 & C2); [intros b' B'; apply K; right; exact B'|]. exists y. split; [reflexivity|]. split; [lra|].
        intros b' [<-|B']; [|apply C2; exact B']. destruct C1 as [C1|C1]; [left; lra|right; exact C1]. }
    apply G. exact H.
  Qed.

  (** *** making space *)
  Definition sp (g : drw) (l : list nat) : Prop := forall i j, (i < j < List.length l)%nat -> gx g (nth i l 0%nat) + (5 # 2) <= gx g (nth j l 0%nat).
  Definition inside (g : drw) (l : list nat) : Prop := forall i, In i l -> (i < size g)%nat.
  Lemma inside_nth (g : drw) l i : inside g l -> (i < List.length l)%nat -> (nth i l 0 < size g)%nat.
  Proof. intros H L. apply H, nth_In, L. Qed.
  Lemma edges_ok (g : drw) box x off scan : inside g scan -> (off + List.length (bd box) <= List.length scan)%nat -> exists l r, find_box_edges bd bc g box x off scan = Ok (l, r) /\ l <= x - LEDGE /\ x + LEDGE <= r /\
    ((0 < List.length (bd box))%nat -> l <= gx g (nth off scan 0%nat) - LEDGE /\ gx g (nth (off + List.length (bd box) - 1) scan 0%nat) + LEDGE <= r) /\
    ((0 < List.length (bc box))%nat -> l <= x - X_SPACING * qnat (List.length (tl (bc box))) / 2 - LEDGE /\ x + X_SPACING * (qnat (List.length (tl (bc box))) - qnat (List.length (tl (bc box))) / 2) + LEDGE <= r).
  Proof.
    intros IN LE. unfold find_box_edges.
    assert (P : exists l r, match bd box with
            | [] => Ok (x, x)
            | _ => do i <- get scan off; do a <- end_x g i; do j <- get scan (off + List.length (bd box) - 1); do b <- end_x g j; Ok (py_min2 a x, py_max2 b x)
            end = Ok (l, r) /\ l <= x /\ x <= r /\ ((0 < List.length (bd box))%nat -> l <= gx g (nth off scan 0%nat) /\ gx g (nth (off + List.length (bd box) - 1) scan 0%nat) <= r)).
    { destruct (bd box) as [|a t] eqn:Eb; cbn [List.length] in *.
      - exists x, x. split; [reflexivity|]. split; [lra|]. split; [lra|]. lia.
      - rewrite (@get_ok _ scan off 0%nat) by lia. cbn [bind]. rewrite end_x_ok by (apply inside_nth; [exact IN|lia]). cbn [bind].
        rewrite (@get_ok _ scan (off + S (List.length t) - 1) 0%nat) by lia. cbn [bind]. rewrite end_x_ok by (apply inside_nth; [exact IN|lia]). cbn [bind].
        eexists. eexists. split; [reflexivity|]. destruct (min2_spec (gx g (nth off scan 0%nat)) x) as (_ & M1 & M2). destruct (max2_spec (gx g (nth (off + S (List.length t) - 1) scan 0%nat)) x) as (_ & M3 & M4). auto. }
    destruct P as (l & r & -> & L1 & L2 & L3). cbn [bind]. destruct (bc box) as [|c cs] eqn:Ec; cbn [List.length tl].
    - eexists. eexists. split; [reflexivity|]. split; [q|]. split; [q|]. split; [|lia]. intro N. specialize (L3 N). split; q.
    - set (n := qnat (List.length cs)). destruct (min2_spec (x - X_SPACING * n / 2) l) as (_ & M1 & M2). destruct (max2_spec (x + X_SPACING * (n - n / 2)) r) as (_ & M3 & M4).
      eexists. eexists. split; [reflexivity|]. split; [q|]. split; [q|]. split; [|intros _; split; q]. intro N. specialize (L3 N). split; q.
  Qed.
End Lay.
