(** Which leg a wire of a circuit comes from, by following the wire backwards: independent of the registers the code keeps. *)
From Verif Require Import PyBase GDiag QModel QSpec TnModel TnMixModel.
Set Implicit Arguments. Unset Strict Implicit.

(** positions of the wires of a kind, and the rank of a wire among the wires of its kind *)
Definition posns (w : wire) (l : list wire) : list nat := filter (fun p => match nth_error l p with Some x => wire_eqb w x | None => false end) (seq 0 (List.length l)).
Definition rank (l : list wire) (p : nat) : nat := match nth_error l p with Some w => wcount w (firstn p l) | None => 0 end.
(** a bit is one tensor leg, a qubit two (the state and its conjugate) *)
Definition copies (w : wire) : list nat := match w with Bt => [0] | Qb => [1; 2] end.
(** leg of the [p]-th input / output wire (copy [c]) of the box of layer [t]: of a mixed box the axes are bits in, qubits in, conjugates in,
    bits out, qubits out, conjugates out; of a pure box there is one node per copy, with its wires in order *)
Definition in_leg (t : nat) (b : qbox) (p c : nat) : leg :=
  if q_mixed b then LNode t 0 (match c with 0 => rank (q_dom b) p | _ => wcount Bt (q_dom b) + (c - 1) * wcount Qb (q_dom b) + rank (q_dom b) p end)
  else LNode t c p.
Definition out_leg (t : nat) (b : qbox) (p c : nat) : leg :=
  if q_mixed b then LNode t 0 (wcount Bt (q_dom b) + 2 * wcount Qb (q_dom b) +
                               match c with 0 => rank (q_cod b) p | _ => wcount Bt (q_cod b) + (c - 1) * wcount Qb (q_cod b) + rank (q_cod b) p end)
  else LNode t c (List.length (q_dom b) + p).
Section Source.
  Variables (dom : list wire) (ls : list (list wire * qbox * list wire)).
  (** the leg of copy [c] of the wire at position [p] after the first [t] layers *)
  Fixpoint qsource (t p c : nat) : leg :=
    match t with
    | O => LReg c (rank dom p) 1
    | S t' =>
        match nth_error ls t' with
        | None => qsource t' p c
        | Some (l, b, _) =>
            let k := List.length l in
            if p <? k then qsource t' p c
            else if p <? k + List.length (q_cod b) then
              match b with QSwap _ _ => qsource t' (if p =? k then S k else k) c | _ => out_leg t' b (p - k) c end
            else qsource t' (p + List.length (q_dom b) - List.length (q_cod b)) c
        end
    end.
  (** the connections layer [t] calls for: every copy of every wire entering the box; a discarded qubit is connected with its conjugate *)
  Definition mix_wires (t : nat) : list (leg * leg) :=
    match nth_error ls t with
    | None => []
    | Some (l, b, _) =>
        match b with
        | QSwap _ _ => []
        | QDisc => [(qsource t (List.length l) 1, qsource t (List.length l) 2)]
        | _ => flat_map (fun p => match nth_error (q_dom b) p with
                                  | Some w => map (fun c => (qsource t (List.length l + p) c, in_leg t b p c)) (copies w)
                                  | None => [] end) (seq 0 (List.length (q_dom b)))
        end
    end.
  (** the edges of the wires of type [ty] after [t] layers: bits, qubits, conjugates *)
  Definition mix_open (t : nat) (ty : list wire) : list leg :=
    map (fun p => qsource t p 0) (posns Bt ty) ++ map (fun p => qsource t p 1) (posns Qb ty) ++ map (fun p => qsource t p 2) (posns Qb ty).
End Source.
Definition mix_nodes (ls : list (list wire * qbox * list wire)) : list (nat * nat) :=
  flat_map (fun t => match nth_error ls t with
                     | Some (_, (QSwap _ _ | QDisc), _) | None => []
                     | Some (_, b, _) => if q_mixed b then [(t, 0)] else [(t, 1); (t, 2)] end) (seq 0 (List.length ls)).
(** the layers on which the code is right: swaps of qubits, swaps of bits with as many bits as qubits on the left, and boxes that are mixed or act on qubits only *)
Definition good_layer (x : list wire * qbox * list wire) : Prop :=
  let '(l, b, _) := x in
  match b with
  | QSwap Qb Qb => True
  | QSwap Bt Bt => wcount Bt l = wcount Qb l
  | QSwap _ _ => False
  | _ => q_mixed b = true \/ (q_dom b = repeat Qb (List.length (q_dom b)) /\ q_cod b = repeat Qb (List.length (q_cod b)))
  end.
(** before decomposition: controlled boxes at any non-zero distance are fine too *)
Definition source_ok (x : list wire * qbox * list wire) : Prop :=
  let '(l, b, r) := x in match b with QCtl c d => d <> 0%Z /\ exists m, on_qubits m c | _ => good_layer (l, b, r) end.
