(** C87, C88: the drawing of a diagram. *)
From Coq Require Import QArith Lia.
From Verif Require Import PyBase DiagModel GDiag GDiagSpec LayModel LaySpec LayEnd LayDone LayScale LayDemo.
Open Scope Q_scope.

(** *** C87: the drawing shows the diagram *)
Theorem C87_drawing_shows_diagram : forall A B (bd bc : B -> list A) (quantum : B -> bool) (d : gdiag A B) (foliated : bool),
  gwf bd bc d -> gdom d <> [] \/ glayers d <> [] ->
  exists g num, from_diagram bd bc quantum d foliated = Ok g /\ shows bd bc d g num.
Proof.
  intros A B bd bc qu d fol WF NE. destruct (@lay _ _ bd bc qu d fol False WF ltac:(tauto) NE) as (g & hist & E & SH & _). eauto.
Qed.
Print Assumptions C87_drawing_shows_diagram.
(** The identity on the empty type has no drawing: the constructor takes the minimum of no coordinates. *)
Theorem C87_empty_diagram_refuted : forall A B (bd bc : B -> list A) (quantum : B -> bool) (foliated : bool),
  gwf bd bc (GD [] [] []) /\ from_diagram bd bc quantum (GD [] [] []) foliated = Err ValueError.
Proof. intros. split; reflexivity. Qed.
Print Assumptions C87_empty_diagram_refuted.
Example C87_sentence : gwf ddom dcod sentence_diag /\
  exists g, draw sentence_diag false = Ok g /\ dr_wires g = [(0, 5); (1, 6); (3, 7); (4, 8); (2, 9)]%nat /\
  map (fun b => (fst (fst (bn_obj b)), bn_dom b, bn_cod b)) (dr_boxes g) = [("John", [], [0]); ("loves", [], [1; 2; 3]); ("Mary", [], [4]); ("CUP", [5; 6], []); ("CUP", [7; 8], [])]%nat%string.
Proof. split; [repeat split; reflexivity|]. eexists. split; [vm_compute; reflexivity|]. split; reflexivity. Qed.
Example C87_effects : gwf ddom dcod effects_diag /\
  exists g, draw effects_diag true = Ok g /\ dr_wires g = [(1, 3); (4, 5); (0, 9); (6, 10); (7, 11); (8, 12); (2, 13)]%nat /\
  links ddom dcod effects_diag = [(PIn 1, PDom 0 0); (PCod 0 0, PDom 1 0); (PIn 0, POut 0); (PCod 1 0, POut 1); (PCod 1 1, POut 2); (PCod 1 2, POut 3); (PIn 2, POut 4)].
Proof. split; [repeat split; reflexivity|]. eexists. split; [vm_compute; reflexivity|]. split; reflexivity. Qed.

(** *** C88: the geometry of the drawing *)
Theorem C88_wires_and_legs : forall A B (bd bc : B -> list A) (quantum : B -> bool) (d : gdiag A B) (foliated : bool) g,
  gwf bd bc d -> from_diagram bd bc quantum d foliated = Ok g ->
  vertical g /\ on_sides g /\ at_origin g /\ exists num, shows bd bc d g num /\ spaced bd bc d g num.
Proof.
  intros A B bd bc qu d fol g WF E. assert (NE : gdom d <> [] \/ glayers d <> []).
  { destruct (gdom d) eqn:E1; [|left; discriminate]. destruct (glayers d) eqn:E2; [|right; discriminate]. rewrite (lay_err qu fol WF E1 E2) in E. discriminate. }
  destruct (@lay _ _ bd bc qu d fol False WF ltac:(tauto) NE) as (g' & hist & E' & SH & F & HI & O). rewrite E in E'. injection E' as <-.
  split; [exact (fin_vertical F)|]. split; [exact (fin_sides F)|]. split; [exact O|]. exists (LayFinal.num bd bc d). split; [exact SH|exact (fin_spaced F HI)].
Qed.
Print Assumptions C88_wires_and_legs.
(** Boxes do not overlap and no wire runs through a box, if the drawing is foliated or no two consecutive boxes have nothing but the empty type between them. *)
Theorem C88_no_overlap : forall A B (bd bc : B -> list A) (quantum : B -> bool) (d : gdiag A B) (foliated : bool) g,
  gwf bd bc d -> foliated = true \/ connected_levels bc d -> from_diagram bd bc quantum d foliated = Ok g -> disjoint g /\ clear g.
Proof.
  intros A B bd bc qu d fol g WF CO E. assert (NE : gdom d <> [] \/ glayers d <> []).
  { destruct (gdom d) eqn:E1; [|left; discriminate]. destruct (glayers d) eqn:E2; [|right; discriminate]. rewrite (lay_err qu fol WF E1 E2) in E. discriminate. }
  destruct (@lay _ _ bd bc qu d fol True WF ltac:(tauto) NE) as (g' & hist & E' & SH & F & HI & O). rewrite E in E'. injection E' as <-.
  split; [exact (fin_disjoint F I)|exact (fin_clear F I)].
Qed.
Print Assumptions C88_no_overlap.
(** [BoxNode.get_x_lims] answers with the edges of the box. *)
Theorem C88_box_edges : forall A B (bd bc : B -> list A) (quantum : B -> bool) (d : gdiag A B) (foliated : bool) g b,
  gwf bd bc d -> from_diagram bd bc quantum d foliated = Ok g -> In b (dr_boxes g) ->
  exists l r, get_x_lims g b = Ok (l, r) /\ left_edge g b l /\ right_edge g b r.
Proof.
  intros A B bd bc qu d fol g b WF E H. assert (NE : gdom d <> [] \/ glayers d <> []).
  { destruct (gdom d) eqn:E1; [|left; discriminate]. destruct (glayers d) eqn:E2; [|right; discriminate]. rewrite (lay_err qu fol WF E1 E2) in E. discriminate. }
  destruct (@lay _ _ bd bc qu d fol False WF ltac:(tauto) NE) as (g' & hist & E' & SH & F & HI & O). rewrite E in E'. injection E' as <-. exact (lims_edges F H).
Qed.
Print Assumptions C88_box_edges.
(** Without foliation, a diagram that passes through the empty type has boxes drawn on top of each other. *)
Theorem C88_overlap_refuted : exists (d : gdiag string dbox) g, gwf ddom dcod d /\ draw d false = Ok g /\ ~ disjoint g.
Proof.
  exists cut_diag. eexists. assert (WF : gwf ddom dcod cut_diag) by (repeat split; reflexivity). split; [exact WF|]. split; [vm_compute; reflexivity|]. intro D.
  destruct (D 0%nat 2%nat _ _ ltac:(discriminate) eq_refl eq_refl) as [K|[K|[K|K]]]; [vm_compute in K; apply K; reflexivity|vm_compute in K; apply K; reflexivity| |].
  - destruct (@C88_box_edges _ _ ddom dcod dquantum cut_diag false _ _ WF ltac:(vm_compute; reflexivity) (or_introl eq_refl)) as (l1 & r1 & E1 & _ & R1).
    destruct (@C88_box_edges _ _ ddom dcod dquantum cut_diag false _ _ WF ltac:(vm_compute; reflexivity) (or_intror (or_intror (or_introl eq_refl)))) as (l2 & r2 & E2 & L2 & _).
    specialize (K _ _ L2 R1). vm_compute in E1, E2. injection E1 as <- <-. injection E2 as <- <-. vm_compute in K. discriminate.
  - destruct (@C88_box_edges _ _ ddom dcod dquantum cut_diag false _ _ WF ltac:(vm_compute; reflexivity) (or_introl eq_refl)) as (l1 & r1 & E1 & L1 & _).
    destruct (@C88_box_edges _ _ ddom dcod dquantum cut_diag false _ _ WF ltac:(vm_compute; reflexivity) (or_intror (or_intror (or_introl eq_refl)))) as (l2 & r2 & E2 & _ & R2).
    specialize (K _ _ L1 R2). vm_compute in E1, E2. injection E1 as <- <-. injection E2 as <- <-. vm_compute in K. discriminate.
Qed.
Print Assumptions C88_overlap_refuted.
(** [scale_and_pad] moves every point of the drawing by one affine map in each direction, legs included. *)
Theorem C88_scaling : forall A B (bd bc : B -> list A) (quantum : B -> bool) (d : gdiag A B) (foliated : bool) g scale pad,
  gwf bd bc d -> from_diagram bd bc quantum d foliated = Ok g ->
  exists g', scale_and_pad g scale pad = Ok g' /\ rescaled g g' scale pad.
Proof.
  intros A B bd bc qu d fol g sc pd WF E. destruct (C88_wires_and_legs _ _ _ _ _ _ _ _ WF E) as (_ & S & ((x & [H|H] & _) & _) & _); apply scale_ok; auto.
  - left. intro K. rewrite K in H. destruct H.
  - right. intro K. rewrite K in H. destruct H.
Qed.
Print Assumptions C88_scaling.
Example C88_sentence : gwf ddom dcod sentence_diag /\ connected_levels dcod sentence_diag /\
  positions sentence_diag false =
    Ok ([(0, 1, Some (- (1 # 2), 1 # 2)); (5, 1, Some (2, 8)); (10, 1, Some (19 # 2, 21 # 2)); (5 # 4, 0, Some (- (1 # 2), 3)); (35 # 4, 0, Some (7, 21 # 2))],
        [(0, 3 # 4); (5 # 2, 3 # 4); (5, 3 # 4); (15 # 2, 3 # 4); (10, 3 # 4); (0, 1 # 4); (5 # 2, 1 # 4); (15 # 2, 1 # 4); (10, 1 # 4); (5, - (1))]).
Proof.
  split; [repeat split; reflexivity|]. split; [|vm_compute; reflexivity].
  intros t x L E. do 5 (destruct t as [|t]; [injection E as <-; discriminate|]). cbn in L. lia.
Qed.
Example C88_effects : gwf ddom dcod effects_diag /\
  positions effects_diag true =
    Ok ([(5, 1 # 2, Some (9 # 2, 11 # 2)); (5, - (1 # 2), Some (2, 8))],
        [(0, 3 # 2); (5, 3 # 2); (10, 3 # 2); (5, 3 # 4); (5, 1 # 4); (5, - (1 # 4)); (5 # 2, - (3 # 4)); (5, - (3 # 4)); (15 # 2, - (3 # 4)); (0, - (3 # 2)); (5 # 2, - (3 # 2)); (5, - (3 # 2)); (15 # 2, - (3 # 2)); (10, - (3 # 2))]).
Proof. split; [repeat split; reflexivity|]. vm_compute. reflexivity. Qed.
Example C88_scaled : scaled cut_diag (2, 4) (1, 3) = Ok ([(1, 10); (1, 6); (1, 10)], [(1, 9); (1, 7); (1, 9); (1, 2)]).
Proof. vm_compute. reflexivity. Qed.
