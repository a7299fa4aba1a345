(** Model of [quantum.Diagram.to_tn] in mixed mode (lambeq/backend/quantum.py 488-586), over the circuits of QModel.v.
    As in TnModel.v, nodes are named by the layer they are made for; arrays and leg dimensions are not represented, and the array of a
    mixed box other than Measure/Encode/MixedState is assumed to have one axis per bit and two per qubit of its [dom] and [cod]. *)
From Coq Require Import QArith.
From Verif Require Import PyBase DiagModel GDiag QModel TnModel.
Close Scope Q_scope. Set Implicit Arguments. Unset Strict Implicit.

(** [list(t).count(w)] *)
Definition wcount (w : wire) (l : list wire) : nat := List.length (filter (wire_eqb w) l).
Record mnet := MNet { m_nodes : list (nat * nat); m_conn : list (leg * leg); m_c : list leg; m_q1 : list leg; m_q2 : list leg }.
(** [scan[k], scan[k + 1] = scan[k + 1], scan[k]] (518-519, 562-565) *)
Definition swap_at (k : nat) (scan : list leg) : res (list leg) :=
  do u <- get scan k; do v <- get scan (k + 1); Ok (firstn k scan ++ [v; u] ++ skipn (k + 2) scan).
(** [scan[k:k + n] = edges] *)
Definition put (k n : nat) (edges scan : list leg) : list leg := firstn k scan ++ edges ++ skipn (k + n) scan.
(** [node[i]] *)
Definition node_leg (legs t c i : nat) : res leg := if i <? legs then Ok (LNode t c i) else Err IndexError.
(** [node[a:a + n]] and [node[a:]] *)
Definition node_legs (legs t c a n : nat) : list leg := map (LNode t c) (firstn n (seq a (legs - a))).
Definition node_rest (legs t c a : nat) : list leg := map (LNode t c) (seq a (legs - a)).
(** legs of the node of a mixed box (527-533) *)
Definition mixed_legs (b : qbox) : nat :=
  match b with
  | QMeas | QEnc => 3 | QMix => 2
  | _ => wcount Bt (q_dom b) + 2 * wcount Qb (q_dom b) + wcount Bt (q_cod b) + 2 * wcount Qb (q_cod b)
  end.
Definition is_qswap (b : qbox) : bool := match b with QSwap _ _ => true | _ => false end.
Definition is_discard (b : qbox) : bool := match b with QDisc => true | _ => false end.
(** loop body (513-581) *)
Definition mix_step (st : mnet) (tx : nat * (list wire * qbox * list wire)) : res mnet :=
  let '(t, x) := tx in let left := gl_left x in let b := gl_box x in
  let co := wcount Bt left in let qo := wcount Qb left in
  if is_qswap b && q_classical b then
    do c' <- swap_at qo (m_c st); Ok (MNet (m_nodes st) (m_conn st) c' (m_q1 st) (m_q2 st))
  else if is_discard b then
    do u <- get (m_q1 st) qo; do v <- get (m_q2 st) qo; do cs <- connect (m_conn st) u v;
    Ok (MNet (m_nodes st) cs (m_c st) (put qo 1 [] (m_q1 st)) (put qo 1 [] (m_q2 st)))
  else if q_mixed b then
    let legs := mixed_legs b in
    let cd := wcount Bt (q_dom b) in let qd := wcount Qb (q_dom b) in let cc := wcount Bt (q_cod b) in let qc := wcount Qb (q_cod b) in
    do cs <- foldM (fun cs i => do u <- get (m_c st) (co + i); do v <- node_leg legs t 0 i; connect cs u v) (seq 0 cd) (m_conn st);
    do cs <- foldM (fun cs i => do u <- get (m_q1 st) (qo + i); do v <- node_leg legs t 0 (cd + i); do cs <- connect cs u v;
                                do u <- get (m_q2 st) (qo + i); do v <- node_leg legs t 0 (cd + qd + i); connect cs u v) (seq 0 qd) cs;
    let cq := cd + 2 * qd in
    Ok (MNet (m_nodes st ++ [(t, 0)]) cs
          (put co cd (node_legs legs t 0 cq cc) (m_c st))
          (put qo qd (node_legs legs t 0 (cq + cc) qc) (m_q1 st))
          (put qo qd (node_rest legs t 0 (cq + cc + qc)) (m_q2 st)))
  else if is_qswap b then
    do a <- swap_at qo (m_q1 st); do c <- swap_at qo (m_q2 st); Ok (MNet (m_nodes st) (m_conn st) (m_c st) a c)
  else
    let m := List.length (q_dom b) in let legs := m + List.length (q_cod b) in
    do cs <- foldM (fun cs i => do u <- get (m_q1 st) (qo + i); do v <- node_leg legs t 1 i; do cs <- connect cs u v;
                                do u <- get (m_q2 st) (qo + i); do v <- node_leg legs t 2 i; connect cs u v) (seq 0 m) (m_conn st);
    Ok (MNet (m_nodes st ++ [(t, 1); (t, 2)]) cs (m_c st) (put qo m (node_rest legs t 1 m) (m_q1 st)) (put qo m (node_rest legs t 2 m) (m_q2 st))).
(** 498-511 and 583-585, for a diagram whose boxes have been decomposed *)
Definition register (c n s : nat) : list leg := map (fun i => LReg c i s) (seq 0 n).
Definition mixed_net (d : qdiag) : res (list (nat * nat) * list (leg * leg) * list leg) :=
  let cn := wcount Bt (gdom d) in let qn := wcount Qb (gdom d) in
  do st <- foldM mix_step (enumerate 0 (glayers d)) (MNet [] [] (register 0 cn 1) (register 1 qn 1) (register 2 qn 1));
  Ok (m_nodes st, m_conn st, (register 0 cn 0 ++ register 1 qn 0 ++ register 2 qn 0) ++ m_c st ++ m_q1 st ++ m_q2 st).
(** 488-496: the boxes decomposed in turn *)
Definition decompose_all (d : qdiag) : res qdiag :=
  foldM (fun a x => do s <- decompose (gl_box x); qthen a (qtensor (qtensor (qid (gl_left x)) s) (qid (gl_right x)))) (glayers d) (qid (gdom d)).
Definition mixed_to_tn (d : qdiag) := do dg <- decompose_all d; mixed_net dg.
