(** Model of [lambeq/rewrite/rewrite_diagram.py: RemoveCupsRewriter] (lines 108-192).
    Simplification: a [Box] kept in the list [diags] is represented by its one-box diagram. *)
From Verif Require Import PyBase TyModel DiagModel.
Set Implicit Arguments.
Local Open Scope string_scope.
Local Open Scope list_scope.

Definition CUP_TOKEN : string := "**CUP**".
Definition is_cup (b : box) : bool := match b with Cup _ _ _ => true | _ => false end.

(** 119-136 [_compress_cups]: the loop over boxes and offsets; [ls] is the list built so far, last element first *)
Definition compress_step (ls : list (box * nat)) (x : layer) : list (box * nat) :=
  let '(l, b, r) := x in
  let offset := List.length l in
  match ls with
  | (b0, o0) :: ls' =>
      if is_cup b && is_cup b0 && (Z.of_nat offset =? Z.of_nat o0 - 1)%Z then
        (Box CUP_TOKEN (py_slice (b_dom b) None (Some 1%Z) ++ b_dom b0 ++ py_slice (b_dom b) (Some 1%Z) None) [] 0, offset) :: ls'
      else (b, offset) :: ls
  | [] => [(b, offset)]
  end.
Definition compress_list (ls : list layer) : list (box * nat) := rev (fold_left compress_step ls []).
Definition compress_cups (d : diagram) : res diagram :=
  foldM (fun acc '(b, o) => then_at acc (to_diag b) (Z.of_nat o)) (compress_list (layers d)) (id (dom d)).

(** 142-146: skip the diagrams lying left of the box *)
Fixpoint rc_split (diags : list diagram) (off : nat) : list diagram * list diagram * nat :=
  match diags with
  | [] => ([], [], off)
  | d :: ds =>
      if Nat.leb (List.length (cod d)) off then
        let '(pre, rest, o) := rc_split ds (off - List.length (cod d)) in (d :: pre, rest, o)
      else ([], diags, off)
  end.
(** 151-157: add diagrams on the right until [need] wires are covered *)
Fixpoint rc_gather (left right : diagram) (need : nat) (more : list diagram) : res (diagram * list diagram) :=
  if Nat.ltb (List.length (cod left ++ cod right)) need then
    match more with
    | [] => Err AssertionError
    | d :: more' => rc_gather left (tensor right d) need more'
    end
  else Ok (right, more).
(** 159-185: contract the box with [left] and [right] *)
Definition rc_contract (left right : diagram) (off : nat) (b : box) : res diagram :=
  let c := cod left ++ cod right in
  let wires_l := id (py_slice c None (Some (Z.of_nat off))) in
  let wires_r := id (py_slice c (Some (Z.of_nat (off + List.length (b_dom b)))) None) in
  if String.eqb (b_name b) CUP_TOKEN || is_cup b then
    let pg_len := (List.length (b_dom b) / 2)%nat in
    let t1 := py_slice (b_dom b) None (Some (Z.of_nat pg_len)) in
    let t2 := py_slice (b_dom b) (Some (Z.of_nat pg_len)) None in
    if Nat.eqb (List.length (cod left)) pg_len && Nat.eqb (List.length (dom left)) 0 then
      d_then right (tensor (d_rotate (if ty_eqb (rot 1 t1) t2 then 1 else -1) (d_dagger left)) wires_r)
    else if Nat.eqb (List.length (cod right)) pg_len && Nat.eqb (List.length (dom right)) 0 then
      d_then left (tensor wires_l (d_rotate (if ty_eqb (rot 1 t1) t2 then -1 else 1) (d_dagger right)))
    else
      do nbox <- cups t1 t2 (negb (ty_eqb t2 (rot 1 t1)));
      d_then (tensor left right) (tensor (tensor wires_l nbox) wires_r)
  else d_then (tensor left right) (tensor (tensor wires_l (to_diag b)) wires_r).
(** 140-186: one turn of the loop *)
Definition rc_step (diags : list diagram) (x : layer) : res (list diagram) :=
  let '(l, b, r) := x in
  let '(pre, rest, off) := rc_split diags (List.length l) in
  if Nat.eqb off 0 && Nat.eqb (List.length (b_dom b)) 0 then Ok (pre ++ to_diag b :: rest)
  else
    match rest with
    | [] => Err IndexError
    | lft :: more =>
        do rm <- rc_gather lft (id []) (off + List.length (b_dom b)) more;
        do new <- rc_contract lft (fst rm) off b;
        Ok (pre ++ new :: snd rm)
    end.
(** 138-188 [_remove_cups] *)
Definition remove_cups_once (d : diagram) : res diagram :=
  do ds <- foldM rc_step (layers d) [id (dom d)];
  Ok (tensor_list (id []) ds).
(** 190-194 [rewrite] *)
Definition remove_cups (d : diagram) : res diagram :=
  do a <- remove_cups_once d; do b <- compress_cups a; remove_cups_once b.
