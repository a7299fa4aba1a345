(** Which leg a wire of a tensor diagram comes from, by following the wire backwards. Independent of the code's scan. *)
From Verif Require Import PyBase GDiag TnModel.
Set Implicit Arguments. Unset Strict Implicit.
(** the leg whose wire is at position [p] after the first [t] layers *)
Fixpoint source (ls : list (list nat * tbox * list nat)) (t p : nat) : leg :=
  match t with
  | O => LIn p 1
  | S t' =>
      match nth_error ls t' with
      | None => source ls t' p
      | Some (l, b, _) =>
          let k := List.length l in
          if p <? k then source ls t' p
          else if p <? k + List.length (t_cod b) then
            match b with TSwap _ _ => source ls t' (if p =? k then S k else k) | _ => LBox t' (List.length (t_dom b) + (p - k)) end
          else source ls t' (p + List.length (t_dom b) - List.length (t_cod b))
      end
  end.
(** the connections that layer [t] calls for: wires entering the box, the two wires of a cup *)
Definition wires_into (ls : list (list nat * tbox * list nat)) (t : nat) : list (leg * leg) :=
  match nth_error ls t with
  | None => []
  | Some (l, b, _) =>
      match b with
      | TSwap _ _ => []
      | TCup _ _ => [(source ls t (List.length l), source ls t (S (List.length l)))]
      | _ => map (fun i => (source ls t (List.length l + i), LBox t i)) (seq 0 (List.length (t_dom b)))
      end
  end.
Definition has_node (ls : list (list nat * tbox * list nat)) (t : nat) : bool :=
  match nth_error ls t with Some (_, (TSwap _ _ | TCup _ _), _) | None => false | _ => true end.
(** all legs of all nodes: the input nodes have two, the node of layer [t] one per wire of its box *)
Definition all_legs (n : nat) (ls : list (list nat * tbox * list nat)) : list leg :=
  flat_map (fun i => [LIn i 0; LIn i 1]) (seq 0 n) ++
  flat_map (fun t => match nth_error ls t with
                     | Some (_, b, _) => if has_node ls t then map (LBox t) (seq 0 (List.length (t_dom b) + List.length (t_cod b))) else []
                     | None => [] end) (seq 0 (List.length ls)).
Definition ends (cs : list (leg * leg)) : list leg := flat_map (fun c => [fst c; snd c]) cs.
