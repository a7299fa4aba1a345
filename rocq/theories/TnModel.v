(** Model of [tensor.Diagram.to_tn] (lambeq/backend/tensor.py 353-420), of [quantum.Diagram.to_tn] (quantum.py 466-586), and of the
    arrays of tensor caps and cups (tensor.py 428-503).
    A tensor network is a list of nodes and a list of connections between legs; what is modelled is which legs get connected.
    A node is named by the index of the layer it was made for. [tn.connect] raises ValueError on a leg that is already connected and
    on connecting a leg with itself; the dimensions of the legs are not represented. *)
From Verif Require Import PyBase DiagModel GDiag QModel.
Set Implicit Arguments. Unset Strict Implicit.

(** atoms of the tensor category are dimensions; boxes: [Swap] (tensor.py 508), [Cup] (468), [Spider] (540; atomic, see grammar.py 1748-1770),
    any other box, caps included (its [array] has one leg per atom of [dom] and [cod], 196-203) *)
Inductive tbox := TSwap (a b : nat) | TCup (a b : nat) | TSpider (d i o : nat) | TBox (name : string) (dom cod : list nat).
Definition t_dom (b : tbox) : list nat := match b with TSwap x y => [x; y] | TCup x y => [x; y] | TSpider d i _ => repeat d i | TBox _ s _ => s end.
Definition t_cod (b : tbox) : list nat := match b with TSwap x y => [y; x] | TCup _ _ => [] | TSpider d _ o => repeat d o | TBox _ _ t => t end.
(** legs of the node of a box: [CopyNode(n_legs_in + n_legs_out)] (398-400) or one per axis (402) *)
Definition t_legs (b : tbox) : nat := match b with TSpider _ i o => i + o | _ => List.length (t_dom b) + List.length (t_cod b) end.

(** a leg: side [s] of input node [i] (374-377), or leg [k] of the node of layer [t]; for circuits (quantum.py 498-511): side [s] of the
    [i]-th input node of register [c] (0: bits, 1 and 2: the two copies of the qubits), or leg [k] of the node number [c] of layer [t]
    (0: the node of a mixed box, 1 and 2: the box and its conjugate) *)
Inductive leg := LIn (i s : nat) | LBox (t k : nat) | LReg (c i s : nat) | LNode (t c k : nat).
Definition leg_eqb (a b : leg) : bool :=
  match a, b with
  | LIn i s, LIn j r => (i =? j) && (s =? r) | LBox t k, LBox u m => (t =? u) && (k =? m)
  | LReg c i s, LReg c' i' s' => (c =? c') && (i =? i') && (s =? s') | LNode t c k, LNode t' c' k' => (t =? t') && (c =? c') && (k =? k')
  | _, _ => false
  end.
Definition dangling (conns : list (leg * leg)) (e : leg) : bool := negb (existsb (fun c => leg_eqb e (fst c) || leg_eqb e (snd c)) conns).
Definition connect (conns : list (leg * leg)) (a b : leg) : res (list (leg * leg)) :=
  if dangling conns a && dangling conns b && negb (leg_eqb a b) then Ok (conns ++ [(a, b)]) else Err ValueError.
Definition get {A} (l : list A) (i : nat) : res A := match nth_error l i with Some x => Ok x | None => Err IndexError end.

Record net := Net { n_nodes : list nat; n_conn : list (leg * leg); n_scan : list leg }.
(** loop body (392-414) for layer [t]; [node[i]] exists for [i] below the number of legs *)
Definition tn_step (st : net) (tx : nat * (list nat * tbox * list nat)) : res net :=
  let '(t, x) := tx in let k := List.length (gl_left x) in let b := gl_box x in let scan := n_scan st in
  match b with
  | TSwap _ _ => do u <- get scan k; do v <- get scan (k + 1); Ok (Net (n_nodes st) (n_conn st) (firstn k scan ++ [v; u] ++ skipn (k + 2) scan))
  | TCup _ _ => do u <- get scan k; do v <- get scan (k + 1); do cs <- connect (n_conn st) u v; Ok (Net (n_nodes st) cs (firstn k scan ++ skipn (k + 2) scan))
  | _ =>
      let m := List.length (t_dom b) in
      do cs <- foldM (fun cs i => do u <- get scan (k + i); if i <? t_legs b then connect cs u (LBox t i) else Err IndexError) (seq 0 m) (n_conn st);
      Ok (Net (n_nodes st ++ [t]) cs (firstn k scan ++ map (LBox t) (seq m (t_legs b - m)) ++ skipn (k + m) scan))
  end.
(** [to_tn] (371-417) on diagrams without boxes that [decompose]: nodes, connections, open edges *)
Definition to_tn (d : gdiag nat tbox) : res (list nat * list (leg * leg) * list leg) :=
  let n := List.length (gdom d) in
  do st <- foldM tn_step (enumerate 0 (glayers d)) (Net [] [] (map (fun i => LIn i 1) (seq 0 n)));
  Ok (n_nodes st, n_conn st, map (fun i => LIn i 0) (seq 0 n) ++ n_scan st).

(** ** Caps: [arr = zeros(left.product ** 2); arr[0] = arr[-1] = 1] (456-459), reshaped to [d x d] *)
Definition cap_array (d i j : nat) : nat := if (i * d + j =? 0) || (i * d + j =? d * d - 1) then 1 else 0.
