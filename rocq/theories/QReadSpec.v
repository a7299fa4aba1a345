(** Reference trace of a circuit: every qubit wire carries the number of the [Ket] that created it, and every box is
    recorded together with the qubits on its wires. Written without looking at [readoff_circuital]. *)
From Coq Require Import QArith.
From Verif Require Import PyBase GDiag QModel QSpec.
Close Scope Q_scope. Set Implicit Arguments. Unset Strict Implicit.
Inductive event :=
| EMeas (q : option nat)             (* measured: the wire becomes a bit *)
| EPost (q : option nat) (b : bool)  (* post-selected *)
| EDisc (q : option nat)             (* discarded *)
| EGate (b : qbox) (qs : list (option nat)).
(** [ws]: label of each wire, [None] for bits and non-existent wires *)
Definition lab (ws : list (option nat)) (k : nat) : option nat := nth k ws None.
Fixpoint trace (next : nat) (ws : list (option nat)) (ls : list (list wire * qbox * list wire)) : list event :=
  match ls with
  | [] => []
  | (l, b, r) :: ls' =>
      let k := List.length l in
      match b with
      | QKet _ => trace (S next) (firstn k ws ++ [Some next] ++ skipn k ws) ls'
      | QMeas => EMeas (lab ws k) :: trace next (firstn k ws ++ [None] ++ skipn (S k) ws) ls'
      | QBra x => EPost (lab ws k) x :: trace next (firstn k ws ++ skipn (S k) ws) ls'
      | QDisc => EDisc (lab ws k) :: trace next (firstn k ws ++ skipn (S k) ws) ls'
      | _ => EGate b (firstn (List.length (q_dom b)) (skipn k ws)) :: trace next ws ls'
      end
  end.
Definition is_consumer (b : qbox) : bool := match b with QMeas | QBra _ | QDisc => true | _ => false end.
(** every box is an initialisation, a measurement, post-selection or discard, or a gate acting on qubits *)
Definition circuit_box (b : qbox) : Prop := is_ket b = true \/ is_consumer b = true \/ exists m, on_qubits m b.
(** no gate comes after a measurement, post-selection or discard *)
Fixpoint gates_first (bs : list qbox) : Prop :=
  match bs with [] => True | b :: bs' => (is_consumer b = true -> Forall (fun c => is_consumer c = true) bs') /\ gates_first bs' end.
(** qubits measured or post-selected, in order; post-selections; discards; gates *)
Definition measured (es : list event) : list (option nat) := flat_map (fun e => match e with EMeas q | EPost q _ => [q] | _ => [] end) es.
Definition posted (es : list event) : list (option nat * bool) := flat_map (fun e => match e with EPost q b => [(q, b)] | _ => [] end) es.
Definition discarded (es : list event) : list (option nat) := flat_map (fun e => match e with EDisc q => [q] | _ => [] end) es.
Definition gated (es : list event) : list (qbox * list (option nat)) := flat_map (fun e => match e with EGate b qs => [(b, qs)] | _ => [] end) es.
(** the exported gate [g] is [g0] (exported as if at qubit 0) with its qubits renamed by the labels [qs] *)
Definition renames (g0 g : gate) (qs : list (option nat)) : Prop :=
  map Some (g_qubits g) = map (lab qs) (g_qubits g0) /\ option_map (map Some) (g_control g) = option_map (map (lab qs)) (g_control g0) /\
  option_map Some (g_target g) = option_map (lab qs) (g_target g0) /\ g_type g = g_type g0 /\ g_phase g = g_phase g0 /\ g_dagger g = g_dagger g0.
(** Circuital: no input wires; first all the kets, each with nothing to its right; and between two boxes that use up a wire
    (a discard or a post-selection) only discards, post-selections and measurements *)
Definition is_end (b : qbox) : bool := match b with QDisc | QBra _ => true | _ => false end.
Definition circuital (d : qdiag) : Prop :=
  gdom d = [] /\ exists ks rest, glayers d = ks ++ rest /\
    Forall (fun x => is_ket (gl_box x) = true /\ gl_right x = []) ks /\ Forall (fun x => is_ket (gl_box x) = false) rest /\
    forall i j k x z y, i < j -> j < k -> nth_error rest i = Some x -> nth_error rest j = Some z -> nth_error rest k = Some y ->
      is_end (gl_box x) = true -> is_end (gl_box y) = true -> is_consumer (gl_box z) = true.
