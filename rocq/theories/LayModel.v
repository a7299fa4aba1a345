(** Model of the layout of drawings: lambeq/backend/drawing/drawable.py 34-40, 73-300 and 303-596, with [scale_and_pad] ([WireEndpoint], [BoxNode], [DrawableDiagram]).
    Diagrams are those of GDiag.v, over any atoms and boxes, so that grammar, tensor and quantum diagrams are covered; [quantum] tells whether a box
    is of the quantum category. Simplifications: coordinates are rational numbers, not floats (every operation of the code is rational);
    noun ids, parents, and the fields [w] and [h] of box nodes, which this class never sets, are left out. *)
From Coq Require Import QArith.
From Verif Require Import PyBase DiagModel GDiag.
Set Implicit Arguments. Unset Strict Implicit.
Open Scope Q_scope.

(** drawable.py 35-39 *)
Definition X_SPACING : Q := 5 # 2.
Definition LEDGE : Q := 1 # 2.
Definition HALF_BOX_HEIGHT : Q := 1 # 4.
(** [a < b] *)
Definition qltb (a b : Q) : bool := negb (Qle_bool b a).
(** the builtins [min] and [max] of two numbers and of a list *)
Definition py_min2 (a b : Q) : Q := if qltb b a then b else a.
Definition py_max2 (a b : Q) : Q := if qltb a b then b else a.
Definition py_min (l : list Q) : res Q := match l with [] => Err ValueError | x :: l' => Ok (fold_left py_min2 l' x) end.
Definition py_max (l : list Q) : res Q := match l with [] => Err ValueError | x :: l' => Ok (fold_left py_max2 l' x) end.
Definition qnat (n : nat) : Q := inject_Z (Z.of_nat n).

(** drawable.py 43-67 *)
Inductive kind := KDom | KCod | KInput | KOutput.
Section Layout.
  Variables (A B : Type) (bd bc : B -> list A) (quantum : B -> bool).
  (** drawable.py 73-98, 134-170, 319-321 *)
  Record wire_end := WE { we_kind : kind; we_obj : A; we_x : Q; we_y : Q }.
  Record box_node := BN { bn_obj : B; bn_x : Q; bn_y : Q; bn_dom : list nat; bn_cod : list nat }.
  Record drawable := DD { dr_boxes : list box_node; dr_ends : list wire_end; dr_wires : list (nat * nat) }.
  (** [l[i]] for an index that is not negative *)
  Definition get X (l : list X) (i : nat) : res X := match nth_error l i with Some x => Ok x | None => Err IndexError end.
  (** [self.wire_endpoints[i].x] *)
  Definition end_x (g : drawable) (i : nat) : res Q := do e <- get (dr_ends g) i; Ok (we_x e).
  (** drawable.py 324-329 *)
  Definition add_wire (g : drawable) (s t : nat) : drawable := DD (dr_boxes g) (dr_ends g) (dr_wires g ++ [(s, t)]).
  (** drawable.py 331-335 *)
  Definition add_wire_end (g : drawable) (e : wire_end) : drawable * nat := (DD (dr_boxes g) (dr_ends g ++ [e]) (dr_wires g), List.length (dr_ends g)).
  (** drawable.py 233-258, with [w = None] *)
  Definition get_x_lims (g : drawable) (b : box_node) : res (Q * Q) :=
    do ps <- mapM (end_x g) (bn_cod b ++ bn_dom b);
    let all_wires_pos := match ps with [] => [bn_x b] | _ => ps end in
    do lo <- py_min all_wires_pos; do hi <- py_max all_wires_pos;
    Ok (lo - LEDGE, hi + LEDGE).
  (** drawable.py 343-397. The node is put into the list of boxes at the start there and gets its wires afterwards; nothing reads it in between. *)
  Definition add_box (g : drawable) (scan : list nat) (box : B) (off : nat) (x_pos y_pos : Q) : res (drawable * list nat) :=
    do p <- foldM (fun p '(i, obj) =>
                     let '(g, ds) := p in
                     do nbr_idx <- get scan (off + i); do x <- end_x g nbr_idx;
                     let '(g, wire_idx) := add_wire_end g (WE KDom obj x (y_pos + HALF_BOX_HEIGHT)) in
                     Ok (add_wire g nbr_idx wire_idx, ds ++ [wire_idx])) (enum 0 (bd box)) (g, []);
    let '(g, ds) := p in
    do q <- foldM (fun p '(i, obj) =>
                     let '(g, cs) := p in
                     do x <- (if quantum box && (List.length (bd box) =? List.length (bc box))%nat
                              then do nbr_idx <- get scan (off + i); end_x g nbr_idx
                              else Ok (x_pos + X_SPACING * (qnat i - qnat (List.length (tl (bc box))) / 2)));
                     let '(g, wire_idx) := add_wire_end g (WE KCod obj x (y_pos - HALF_BOX_HEIGHT)) in
                     Ok (g, cs ++ [wire_idx])) (enum 0 (bc box)) (g, []);
    let '(g, cs) := q in
    Ok (DD (dr_boxes g ++ [BN box x_pos y_pos ds cs]) (dr_ends g) (dr_wires g), firstn off scan ++ cs ++ skipn (off + List.length (bd box)) scan).
  (** drawable.py 399-422 *)
  Definition find_box_edges (g : drawable) (box : B) (x : Q) (off : nat) (scan : list nat) : res (Q * Q) :=
    do p <- match bd box with
            | [] => Ok (x, x)
            | _ => do i <- get scan off; do a <- end_x g i; do j <- get scan (off + List.length (bd box) - 1); do b <- end_x g j; Ok (py_min2 a x, py_max2 b x)
            end;
    let '(left_edge, right_edge) := p in
    let n := qnat (List.length (tl (bc box))) in
    let '(left_edge, right_edge) :=
      match bc box with
      | [] => (left_edge, right_edge)
      | _ => (py_min2 (x - X_SPACING * n / 2) left_edge, py_max2 (x + X_SPACING * (n - n / 2)) right_edge)
      end in
    Ok (left_edge - LEDGE, right_edge + LEDGE).
  (** a change of the x coordinates of all nodes *)
  Definition map_x (f : Q -> Q) (g : drawable) : drawable :=
    DD (map (fun b => BN (bn_obj b) (f (bn_x b)) (bn_y b) (bn_dom b) (bn_cod b)) (dr_boxes g)) (map (fun e => WE (we_kind e) (we_obj e) (f (we_x e)) (we_y e)) (dr_ends g)) (dr_wires g).
  Definition map_y (f : Q -> Q) (g : drawable) : drawable :=
    DD (map (fun b => BN (bn_obj b) (bn_x b) (f (bn_y b)) (bn_dom b) (bn_cod b)) (dr_boxes g)) (map (fun e => WE (we_kind e) (we_obj e) (we_x e) (f (we_y e))) (dr_ends g)) (dr_wires g).
  (** drawable.py 473-481 *)
  Definition next_y (g : drawable) (left_edge right_edge : Q) : res Q :=
    foldM (fun y b => do p <- get_x_lims g b; let '(bl, br) := p in
                      if negb (qltb right_edge bl || qltb br left_edge) then Ok (py_min2 y (bn_y b - 1)) else Ok y) (dr_boxes g) 0.
  (** drawable.py 424-483 *)
  Definition make_space (g : drawable) (scan : list nat) (box : B) (off : nat) : res (drawable * Q * Q) :=
    match scan with
    | [] => Ok (g, 0, 0)
    | _ =>
        let half_width := X_SPACING * (qnat (List.length (removelast (bc box))) / 2 + 1) in
        let n := List.length (bd box) in
        do x <- match bd box with
                | [] => if (off =? 0)%nat then do i <- get scan 0; do a <- end_x g i; Ok (a - half_width)
                        else if (off =? List.length scan)%nat then do i <- get scan (List.length scan - 1); do a <- end_x g i; Ok (a + half_width)
                        else do i <- get scan (off + n); do rgt <- end_x g i; do j <- get scan (off - 1); do a <- end_x g j; Ok ((a + rgt) / 2)
                | _ => do i <- get scan (off + n - 1); do rgt <- end_x g i; do j <- get scan off; do a <- end_x g j; Ok ((a + rgt) / 2)
                end;
        do g <- (if (off =? 0)%nat then Ok g
                 else do i <- get scan (off - 1); do limit <- end_x g i;
                      if qltb (x - half_width) limit
                      then let pad := limit - x + half_width in Ok (map_x (fun z => if Qle_bool z limit then z - pad else z) g)
                      else Ok g);
        do g <- (if (off + n <? List.length scan)%nat
                 then do i <- get scan (off + n); do limit <- end_x g i;
                      if qltb limit (x + half_width)
                      then let pad := x + half_width - limit in Ok (map_x (fun z => if Qle_bool limit z then z + pad else z) g)
                      else Ok g
                 else Ok g);
        do p <- find_box_edges g box x off scan;
        let '(left_edge, right_edge) := p in
        do y <- next_y g left_edge right_edge;
        Ok (g, x, y)
    end.
  (** [[node.x for node in self.boxes + self.wire_endpoints]] *)
  Definition all_x (g : drawable) : list Q := map bn_x (dr_boxes g) ++ map we_x (dr_ends g).
  Definition all_y (g : drawable) : list Q := map bn_y (dr_boxes g) ++ map we_y (dr_ends g).
  (** drawable.py 485-503 *)
  Definition move_to_origin (g : drawable) : res drawable :=
    do min_x <- py_min (all_x g); do min_y <- py_min (all_y g); do max_y <- py_max (all_y g);
    let mid_y := (min_y + max_y) / 2 in
    Ok (map_y (fun y => y - mid_y) (map_x (fun x => x - min_x) g)).
  (** drawable.py 529-535 *)
  Definition inputs (t : list A) : list wire_end := map (fun '(i, obj) => WE KInput obj (X_SPACING * qnat i) 1) (enum 0 t).
  (** drawable.py 539-547: one round of the loop *)
  Definition place (foliated : bool) (st : drawable * list nat * Q) (p : nat * (B * nat)) : res (drawable * list nat * Q) :=
    let '(g, scan, min_y) := st in let '(depth, (box, off)) := p in
    do m <- make_space g scan box off; let '(g, x, y) := m in
    let y := if foliated then - qnat depth else y in
    do q <- add_box g scan box off x y; let '(g, scan) := q in
    Ok (g, scan, py_min2 min_y y).
  (** drawable.py 549-558 *)
  Definition add_outputs (g : drawable) (scan : list nat) (t : list A) (min_y : Q) : res drawable :=
    foldM (fun g '(i, obj) => do s <- get scan i; do x <- end_x g s;
                              let '(g, idx) := add_wire_end g (WE KOutput obj x (min_y - 1)) in Ok (add_wire g s idx)) (enum 0 t) g.
  (** drawable.py 505-562 *)
  Definition from_diagram (d : gdiag A B) (foliated : bool) : res drawable :=
    let g := DD [] (inputs (gdom d)) [] in
    let scan := seq 0 (List.length (gdom d)) in
    do st <- foldM (place foliated) (enum 0 (map (fun x => (gl_box x, List.length (gl_left x))) (glayers d))) (g, scan, 1);
    let '(g, scan, min_y) := st in
    do g <- add_outputs g scan (gcod d) min_y;
    move_to_origin g.
  (** [self.wire_endpoints[i].y = y] *)
  Definition set_y (i : nat) (y : Q) (es : list wire_end) : res (list wire_end) :=
    match nth_error es i with
    | Some e => Ok (firstn i es ++ WE (we_kind e) (we_obj e) (we_x e) y :: skipn (S i) es)
    | None => Err IndexError
    end.
  (** drawable.py 564-596 *)
  Definition scale_and_pad (g : drawable) (scale pad : Q * Q) : res drawable :=
    do min_x <- py_min (all_x g); do min_y <- py_min (all_y g);
    let fx x := min_x + (x - min_x) * fst scale + fst pad in
    let fy y := min_y + (y - min_y) * snd scale + snd pad in
    let es := map (fun e => WE (we_kind e) (we_obj e) (fx (we_x e)) (fy (we_y e))) (dr_ends g) in
    do p <- foldM (fun p b =>
                     let '(bs, es) := p in
                     let b := BN (bn_obj b) (fx (bn_x b)) (fy (bn_y b)) (bn_dom b) (bn_cod b) in
                     do es <- foldM (fun es i => set_y i (bn_y b + HALF_BOX_HEIGHT * snd scale) es) (bn_dom b) es;
                     do es <- foldM (fun es i => set_y i (bn_y b - HALF_BOX_HEIGHT * snd scale) es) (bn_cod b) es;
                     Ok (bs ++ [b], es)) (dr_boxes g) ([], es);
    let '(bs, es) := p in
    Ok (DD bs es (dr_wires g)).
End Layout.
