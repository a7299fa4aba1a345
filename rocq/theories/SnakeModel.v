(** Model of [lambeq/backend/snake_removal.py] and of [Diagram.normal_form],
    [Diagram.remove_snakes] (grammar.py 1198-1241).

    Python generators are modelled by the list of diagrams they yield or, where the
    caller only keeps the last one, by that diagram.  [while] loops take fuel and return
    [None] when it runs out; the theorems show that this does not happen. *)
From Verif Require Import PyBase TyModel DiagModel BoxEq.
Set Implicit Arguments.

Definition off (x : layer) : nat := List.length (l_left x).
Definition ndom (x : layer) : nat := List.length (b_dom (l_box x)).
Definition ncod (x : layer) : nat := List.length (b_cod (l_box x)).

(** snake_removal.py 223-246: the adjacent case, [x0] above [x1]; returns the two new
    layers, top first *)
Definition commute (left : bool) (x0 x1 : layer) : res (layer * layer) :=
  let '(left0, box0, right0) := x0 in
  let '(left1, box1, right1) := x1 in
  let box0_left := (* lines 226-231 and 238-243 *)
    let middle := skipn (List.length (left0 ++ b_cod box0)) left1 in
    Ok ((left0 ++ b_dom box0 ++ middle, box1, right1),
        (left0, box0, middle ++ b_cod box1 ++ right1)) in
  let box0_right := (* lines 232-237 *)
    let middle := skipn (List.length (left1 ++ b_dom box1)) left0 in
    Ok ((left1, box1, middle ++ b_dom box0 ++ right0),
        (left1 ++ b_cod box1 ++ middle, box0, right0)) in
  if left && (off x0 + ncod x0 <=? off x1) then box0_left
  else if off x1 + ndom x1 <=? off x0 then box0_right
  else if off x0 + ncod x0 <=? off x1 then box0_left
  else Err InterchangerError.

(** lines 219-248 with j = i + 1 (the two indices are sorted in line 219-220) *)
Definition interchange_adj (left : bool) (d : diagram) (i : nat) : res diagram :=
  match skipn i (layers d) with
  | x0 :: x1 :: rest =>
      do (y0, y1) <- commute left x0 x1;
      Ok (Diag (dom d) (cod d) (firstn i (layers d) ++ [y0; y1] ++ rest))
  | _ => Err IndexError
  end.

(** lines 172-248 *)
Definition interchange (d : diagram) (i j : Z) (left : bool) : res diagram :=
  let n := Z.of_nat (List.length (layers d)) in
  if negb ((0 <=? i) && (i <? n) && (0 <=? j) && (j <? n))%Z then Err IndexError
  else
    let i := Z.to_nat i in let j := Z.to_nat j in
    if i =? j then Ok d
    else if j <? i
    then (* recursive calls (i-k, i-k-1): lines 208-212, or directly when j = i - 1 *)
         foldM (fun d k => interchange_adj left d (i - k - 1)) (seq 0 (i - j)) d
    else (* recursive calls (i+k, i+k+1): lines 213-217, or directly when j = i + 1 *)
         foldM (fun d k => interchange_adj left d (i + k)) (seq 0 (j - i)) d.

(** ** Snakes *)

(** lines 69-94: [rest] are the layers below index [i] *)
Fixpoint follow_from (rest : list layer) (i j : nat) (lo ro : list nat)
  : nat * nat * (list nat * list nat) :=
  match rest with
  | [] => (S i, j, (lo, ro))
  | x :: rest' =>
      let i := S i in
      if (off x <=? j) && (j <? off x + ndom x) then (i, j, (lo, ro))
      else if off x <=? j
           then follow_from rest' i (j + ncod x - ndom x) (lo ++ [i]) ro
           else follow_from rest' i j lo (ro ++ [i])
  end.
Definition follow_wire (ls : list layer) (i j : nat) := follow_from (skipn (S i) ls) i j [] [].

Definition is_cap (b : box) : bool := match b with Cap _ _ _ => true | _ => false end.
Definition is_cup (b : box) : bool := match b with Cup _ _ _ => true | _ => false end.

(** (cup, cap, obstructions, left_snake) *)
Definition snake := (nat * nat * (list nat * list nat) * bool)%type.

(** lines 105-119: the body of the inner loop *)
Definition try_leg (ls : list layer) (cap : nat) (left_snake : bool) (wire : nat) : option snake :=
  let '(cup, wire, obs) := follow_wire ls cap wire in
  match nth_error ls cup with
  | None => None
  | Some y =>
      if negb (is_cup (l_box y))
         || (left_snake && negb (off y + 1 =? wire))
         || (negb left_snake && negb (off y =? wire))
      then None else Some (cup, cap, obs, left_snake)
  end.
(** lines 104-120: one iteration of the outer loop *)
Definition try_cap (ls : list layer) (cap : nat) : option snake :=
  match nth_error ls cap with
  | None => None
  | Some x =>
      if is_cap (l_box x)
      then match try_leg ls cap true (off x) with
           | Some s => Some s
           | None => try_leg ls cap false (off x + 1)
           end
      else None
  end.
Fixpoint first_some {A B} (f : A -> option B) (l : list A) : option B :=
  match l with
  | [] => None
  | x :: l' => match f x with Some b => Some b | None => first_some f l' end
  end.
(** lines 96-120 *)
Definition find_snake (d : diagram) : option snake :=
  first_some (try_cap (layers d)) (seq 0 (List.length (layers d))).

(** lines 122-161; indices stay non-negative, so [pred] is Python's [- 1] *)
Definition unsnake (d : diagram) (s : snake) : res diagram :=
  let '(cup, cap, (lo, ro), left_snake) := s in
  do (d, cup, cap) <-
    (if left_snake then
       do (d, cap, ro) <- foldM (fun '(d, cap, ro) box =>
            do d' <- interchange d (Z.of_nat box) (Z.of_nat cap) false;
            Ok (d', S cap, map (fun r => if r <? box then S r else r) ro)) lo (d, cap, ro);
       do (d, cup) <- foldM (fun '(d, cup) box =>
            do d' <- interchange d (Z.of_nat box) (Z.of_nat cup) false;
            Ok (d', Nat.pred cup)) (rev ro) (d, cup);
       Ok (d, cup, cap)
     else
       do (d, cup, ro) <- foldM (fun '(d, cup, ro) box =>
            do d' <- interchange d (Z.of_nat box) (Z.of_nat cup) false;
            Ok (d', Nat.pred cup, map (fun r => if box <? r then Nat.pred r else r) ro))
            (rev lo) (d, cup, ro);
       do (d, cap) <- foldM (fun '(d, cap) box =>
            do d' <- interchange d (Z.of_nat box) (Z.of_nat cap) false;
            Ok (d', S cap)) ro (d, cap);
       Ok (d, cup, cap));
  Ok (Diag (dom d) (cod d) (firstn cap (layers d) ++ skipn (cup + 1) (layers d))).

(** lines 163-169 and grammar.py 1225-1241 *)
Fixpoint remove_snakes (fuel : nat) (d : diagram) : option (res diagram) :=
  match fuel with
  | O => None
  | S f =>
      match find_snake d with
      | None => Some (Ok d)
      | Some s => match unsnake d s with
                  | Err e => Some (Err e)
                  | Ok d' => remove_snakes f d'
                  end
      end
  end.

(** ** Normal form *)

(** lines 285-291: is there a move at index [i]? *)
Definition movable (left : bool) (ls : list layer) (i : nat) : bool :=
  match skipn i ls with
  | x0 :: x1 :: _ =>
      (left && (off x0 + ncod x0 <=? off x1)) || (negb left && (off x1 + ndom x1 <=? off x0))
  | _ => false
  end.

(** State of the consumer loop, grammar.py 1214-1221: the current diagram and the set of
    diagrams already yielded. *)
  (** one pass of [for i in range(len(diagram) - 1)], lines 284-294;
      the boolean says whether a move was made *)
  Definition nf_step (left : bool) (st : diagram * list diagram * bool) (i : nat)
    : res (diagram * list diagram * bool) :=
    let '(d, cache, moved) := st in
    if movable left (layers d) i
    then do d' <- interchange d (Z.of_nat i) (Z.of_nat (i + 1)) left;
         if existsb (diagram_eqb d') cache then Err NotImplementedError
         else Ok (d', d' :: cache, true)
    else Ok st.
  Fixpoint normalize (fuel : nat) (left : bool) (d : diagram) (cache : list diagram)
    : option (res diagram) :=
    match fuel with
    | O => None
    | S f =>
        match foldM (nf_step left) (seq 0 (List.length (layers d) - 1)) (d, cache, false) with
        | Err e => Some (Err e)
        | Ok (d', cache', moved) =>
            if moved then normalize f left d' cache' else Some (Ok d')
        end
    end.
  (** grammar.py 1198-1221 *)
  Definition normal_form (fuel : nat) (left : bool) (d : diagram) : option (res diagram) :=
    match remove_snakes fuel d with
    | None => None
    | Some (Err e) => Some (Err e)
    | Some (Ok d') => normalize fuel left d' []
    end.

(** grammar.py 1177-1187: the leading word boxes, tensored, and whether each of them is
    right-most when it occurs *)
Fixpoint take_words (ls : list layer) (words : diagram) : diagram * bool :=
  match ls with
  | (_, Word n c z, r) :: ls' =>
      match r with
      | [] => take_words ls' (tensor words (to_diag (Word n c z)))
      | _ => (words, false)
      end
  | _ => (words, true)
  end.
Definition is_wire (b : box) : bool :=
  match b with Cup _ _ _ | Cap _ _ _ | Swap _ _ => true | _ => false end.
(** grammar.py 1168-1196 *)
Definition pregroup_normal_form (fuel : nat) (d : diagram) : option (res diagram) :=
  let '(words, ok) := take_words (layers d) (id []) in
  match d_slice d (Some (Z.of_nat (List.length (layers words)))) None with
  | Err e => Some (Err e)
  | Ok wires =>
      if negb (ok && forallb is_wire (boxes wires)) || match cod words with [] => true | _ => false end
      then normal_form fuel false d
      else match normal_form fuel false words with
           | Some (Ok a) => match normal_form fuel false wires with
                            | Some (Ok b) => Some (d_then a b)
                            | r => r
                            end
           | r => r
           end
  end.
