(** Model of [to_circuital] in [lambeq/backend/quantum.py] (1224-1511), on the circuits of QModel.v.
    Simplifications: layers and boxes are values, so a change made in place cannot be seen through another reference (in the code [CCX]
    contains the very box [CX]); [pull_bit_through] is never called and left out; the functor of 1475-1478 (identity on types, each box to
    itself or to a sequence of two boxes) is the layer-wise substitution it performs; a [Controlled] box has the wires its distances span
    (if pulling a qubit through changes the distances so that this is not one wire more, which happens for controls on both sides of the
    target, the model stops with [OtherError], the code goes on with a box whose wires and distances disagree). *)
From Coq Require Import QArith.
From Verif Require Import PyBase GDiag QModel.
Close Scope Q_scope. Set Implicit Arguments. Unset Strict Implicit.

Definition qlayer := (list wire * qbox * list wire)%type.
(** [Ty.insert] (grammar.py 239-262) of one wire at a non-negative index; [w] is [qubit] in all calls *)
Definition w_insert (t : list wire) (w : wire) (i : nat) : res (list wire) :=
  if i <=? List.length t then Ok (firstn i t ++ w :: skipn i t) else Err IndexError.

(** 1258-1262 and 1475-1478 *)
Definition remove_ketbra1 (x : qlayer) : list qlayer :=
  let '(l, b, r) := x in
  match b with
  | QKet true => [(l, QKet false, r); (l, gX, r)]
  | QBra true => [(l, gX, r); (l, QBra false, r)]
  | _ => [x]
  end.

(** 1401-1407: [dists.append(curr_box.distance + sum(dists))] *)
Definition ctl_offsets (b : qbox) : list Z := fold_left (fun ds d => ds ++ [(d + fold_right Z.add 0 ds)%Z]) (ctl_dists b) [0%Z].
(** 1412-1422 *)
Fixpoint bump_dists (b : qbox) (prev q : Z) : qbox :=
  match b with
  | QCtl c d =>
      let curr := (prev + d)%Z in
      QCtl (bump_dists c curr q)
           (if (prev <? q)%Z && (q <=? curr)%Z then (d + 1)%Z else if (q <=? prev)%Z && (curr <? q)%Z then (d - 1)%Z else d)
  | _ => b
  end.
(** 1397-1427, a controlled box starting at wire [k] *)
Definition pull_ctl (b : qbox) (k q : nat) : qbox :=
  bump_dists b (- fold_left Z.min (ctl_offsets b) 0 + Z.of_nat k)%Z (Z.of_nat q).

(** 1362-1440 [pull_qubit_through] *)
Fixpoint pull (q : nat) (ls : list qlayer) : res (list qlayer * nat) :=
  match ls with
  | [] => Ok ([], q)
  | (l, b, r) :: ls' =>
      let k := List.length l in let m := List.length (q_dom b) in
      if q <=? k then
        do l' <- w_insert l Qb q;
        do o <- pull q ls'; Ok ((l', b, r) :: fst o, snd o)
      else if k + m <=? q then
        do r' <- w_insert r Qb (q - (k + m));
        do o <- pull (q - (k + m) + k + List.length (q_cod b)) ls'; Ok ((l, b, r') :: fst o, snd o)
      else
        match b with
        | QCtl _ _ =>
            let b' := pull_ctl b k q in
            if List.length (q_dom b') =? S m then do o <- pull q ls'; Ok ((l, b', r) :: fst o, snd o) else Err OtherError
        | QSwap _ _ =>
            do o <- pull q ls';
            Ok ((l, gSWAP, Qb :: r) :: (Qb :: l, gSWAP, r) :: (l, gSWAP, Qb :: r) :: fst o, snd o)
        | _ => pull q ls'
        end
  end.

(** 1264-1287 [add_qubit] *)
Definition add_qubit (qs : list qlayer) (b : qbox) (offset : nat) (gates : list qlayer) : res (list qlayer * list qlayer) :=
  do qs' <- mapM (fun x => if offset <=? List.length (gl_left x) then do l <- w_insert (gl_left x) Qb offset; Ok (l, gl_box x, gl_right x) else Ok x) qs;
  do g <- pull offset gates;
  Ok (firstn offset qs' ++ (repeat Qb offset, b, []) :: skipn offset qs', fst g).

(** 1442-1474 [build_left_right] *)
Definition build_left_right (q : nat) (x : qlayer) (ls : list qlayer) : res qlayer :=
  match rev ls with
  | [] => Ok x
  | y :: _ =>
      let total := gl_cod q_cod y in
      if q <? List.length total then Ok (firstn q total, gl_box x, skipn (S q) total) else Err IndexError
  end.

(** 1289-1314 [construct_measurements] *)
Definition post_key (st : list nat * list (nat * qlayer)) (x : qlayer) : res (list nat * list (nat * qlayer)) :=
  let '(idx, keyed) := st in
  match nth_error idx (List.length (gl_left x)) with
  | Some i => Ok (remove_first i idx, keyed ++ [(i, x)])
  | None => Err IndexError
  end.
Fixpoint insert_keyed (p : nat * qlayer) (l : list (nat * qlayer)) : list (nat * qlayer) :=
  match l with [] => [p] | p' :: l' => if fst p <=? fst p' then p :: l else p' :: insert_keyed p l' end.
Definition construct_measurements (last : qlayer) (posts : list qlayer) : res (list qlayer) :=
  let total := gl_cod q_cod last in
  do st <- foldM post_key posts (seq 0 (List.length total), []);
  let '(idx, keyed) := st in
  Ok (map (fun p => (repeat Bt (List.length (filter (fun i => i <? fst p) idx)), gl_box (snd p), skipn (S (fst p)) total))
          (fold_right insert_keyed [] keyed)).

(** 1482-1500: the loop over [layers], which grows while it is iterated over; [fuel] bounds the number of layers visited *)
Fixpoint circ_loop (fuel : nat) (ls qs gates posts : list qlayer) : res (list qlayer * list qlayer * list qlayer) :=
  match ls with
  | [] => Ok (qs, gates, posts)
  | x :: rest =>
      match fuel with
      | O => Err OtherError
      | S f =>
          match gl_box x with
          | QKet _ => do st <- add_qubit qs (gl_box x) (List.length (gl_left x)) gates; circ_loop f rest (fst st) (snd st) posts
          | QBra _ | QDisc =>
              do o <- pull (List.length (gl_left x)) rest;
              do y <- build_left_right (snd o) x (fst o);
              circ_loop f (fst o) qs gates (y :: posts)
          | _ => circ_loop f rest qs (gates ++ [x]) posts
          end
      end
  end.

(** 1224-1511; at the end the one-layer diagrams are composed with [>>] *)
Definition one_layer (x : qlayer) : qdiag := GD (gl_dom q_dom x) (gl_cod q_cod x) [x].
Definition to_circuital (fuel : nat) (d : qdiag) : res qdiag :=
  do c <- init_and_discard d;
  do st <- circ_loop fuel (flat_map remove_ketbra1 (glayers c)) [] [] [];
  let '(qs, gates, posts) := st in
  do posts' <- (match rev gates with [] => Ok posts | last :: _ => construct_measurements last posts end);
  match map one_layer (qs ++ gates ++ posts') with
  | [] => Err IndexError
  | x :: xs => foldM qthen xs x
  end.
