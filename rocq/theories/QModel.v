(** Model of [lambeq/backend/quantum.py] (and the [Symbol] of [lambeq/backend/symbol.py]): boxes, gate
    placement, decomposition, spiders/cups/caps, closing a circuit, reading a circuit off.
    Circuits are the generic diagrams of GDiag.v over the wires [qubit]/[bit].
    Simplifications: of a box name only the part before "(" is kept (that is all [Gate.from_box] uses);
    box data (arrays) are not stored in boxes -- the arrays are given by an interpretation, see [q_array];
    leg counts are naturals; phases are rationals. *)
From Coq Require Import QArith.
From Verif Require Import PyBase DiagModel GDiag.
Close Scope Q_scope. Set Implicit Arguments. Unset Strict Implicit.

(** quantum.py 102-103 *)
Inductive wire := Qb | Bt.
Definition wire_eqb (a b : wire) : bool := match a, b with Qb, Qb | Bt, Bt => true | _, _ => false end.

(** symbol.py 41-44: a phase is a symbol or a number *)
Inductive param := PSym (name : string) (dd dc : Z) (scale : Q) | PVal (v : Q).
(** symbol.py 68-72, and [-x] on numbers *)
Definition p_neg (p : param) : param := match p with PSym n a b s => PSym n a b (- s)%Q | PVal v => PVal (- v)%Q end.

Inductive raxis := AX | AY | AZ.
(** the box classes of quantum.py: [Box] (107-165), [Rotation] (858-919), [Controlled] (922), [Ket] (747), [Bra] (779),
    [Bit] (1157), [Discard], [MixedState], [Measure], [Encode] (1025-1063), [Scalar]/[Sqrt] (1067-1115),
    [Swap] (704), [Daggered] (1119) *)
Inductive qbox :=
| QBox (name : string) (dom cod : list wire) (mixed selfadj : bool)
| QRot (a : raxis) (phase : param)
| QCtl (b : qbox) (distance : Z)
| QKet (bit : bool) | QBra (bit : bool) | QBit (bit : bool)
| QDisc | QMix | QMeas | QEnc
| QScal (root : bool) (v : Q)
| QSwap (a b : wire)
| QDag (b : qbox).

(** the [dom]/[cod] set by the constructors (same lines); a [Controlled] box is [qubit ** width] (940-950) *)
Fixpoint q_dom (b : qbox) : list wire :=
  match b with
  | QBox _ d _ _ _ => d | QRot _ _ => [Qb]
  | QCtl c d => repeat Qb (List.length (q_dom c) + Z.abs_nat d)
  | QKet _ | QBit _ | QMix | QScal _ _ => []
  | QBra _ | QDisc | QMeas => [Qb] | QEnc => [Bt]
  | QSwap a b => [a; b]
  | QDag c => q_cod c
  end
with q_cod (b : qbox) : list wire :=
  match b with
  | QBox _ _ c _ _ => c | QRot _ _ => [Qb]
  | QCtl c d => repeat Qb (List.length (q_dom c) + Z.abs_nat d)
  | QKet _ | QMix => [Qb] | QBit _ => [Bt] | QScal _ _ => []
  | QBra _ | QDisc => [] | QMeas => [Bt] | QEnc => [Qb]
  | QSwap a b => [b; a]
  | QDag c => q_dom c
  end.

(** [dagger] of each class: 157-162, 738 (tensor.py 532), 775, 808, 870, 1012-1014, 1032, 1042, 1052, 1062, 1088, 1114, 1150.
    Scalars are real here, so their conjugate is themselves. *)
Fixpoint q_dag (b : qbox) : qbox :=
  match b with
  | QBox _ _ _ _ true => b | QBox _ _ _ _ false => QDag b
  | QRot a p => QRot a (p_neg p)
  | QCtl c d => QCtl (q_dag c) d
  | QKet x => QBra x | QBra x => QKet x | QBit _ => QDag b
  | QDisc => QMix | QMix => QDisc | QMeas => QEnc | QEnc => QMeas
  | QScal _ _ => b
  | QSwap x y => QSwap y x
  | QDag c => c
  end.
(** [is_mixed]: 126, 948, 1030, 1040, 1050, 1060, 1143 *)
Fixpoint q_mixed (b : qbox) : bool :=
  match b with
  | QBox _ _ _ m _ => m | QCtl c _ => q_mixed c | QDisc | QMix | QMeas | QEnc => true | QDag c => q_mixed c
  | _ => false
  end.
(** 153-155 *)
Definition q_classical (b : qbox) : bool :=
  let t := q_dom b ++ q_cod b in negb (match t with [] => true | _ => false end) && forallb (wire_eqb Bt) t.

Definition qdiag := gdiag wire qbox.
Definition qid (t : list wire) : qdiag := gid t.
Definition qb (b : qbox) : qdiag := gbox q_dom q_cod b.
Definition qthen (a b : qdiag) : res qdiag := gthen wire_eqb a b.
Definition qthen_at (d x : qdiag) (i : Z) : res qdiag := gthen_at wire_eqb d x i.
Definition qtensor (a b : qdiag) : qdiag := gtensor a b.
Definition qdagger (d : qdiag) : qdiag := gdagger q_dag d.
Definition qperm (t : list wire) (p : list nat) : res qdiag := gpermutation wire_eqb q_dom q_cod QSwap t p.
(** [Id(n)] (741-744) *)
Definition qubits (n : nat) : list wire := repeat Qb n.
Definition Idn (n : nat) : qdiag := qid (qubits n).

(** 1182-1199 *)
Definition q1 (name : string) (sa : bool) : qbox := QBox name [Qb] [Qb] false sa.
Definition gH := q1 "H" true. Definition gS := q1 "S" false. Definition gT := q1 "T" false.
Definition gX := q1 "X" true. Definition gY := q1 "Y" true. Definition gZ := q1 "Z" true.
Definition gCX := QCtl gX 1. Definition gCY := QCtl gY 1. Definition gCZ := QCtl gZ 1.
Definition gCCX := QCtl gCX 1. Definition gCCZ := QCtl gCZ 1.
Definition CRot (a : raxis) (phi : param) : qbox := QCtl (QRot a phi) 1.
Definition gSWAP := QSwap Qb Qb.
Definition sqrt2 := QScal true 2%Q.

(** [Controlled.__init__] (937): [assert distance] *)
Definition mk_ctl (b : qbox) (d : Z) : res qbox := if (d =? 0)%Z then Err AssertionError else Ok (QCtl b d).

(** [min(qubits)] *)
Definition py_min (qs : list Z) : res Z := match qs with [] => Err ValueError | q :: qs' => Ok (fold_left Z.min qs' q) end.
(** [Diagram.apply_gate] (224-254); [np.argmin]/[np.argmax] return the first of equal entries *)
Definition apply_gate (d : qdiag) (gate : qbox) (qs : list Z) : res qdiag :=
  match gate with
  | QCtl (QCtl atomic _) _ =>
      do mn <- py_min qs;
      match qs with
      | [q0; q1; q2] =>
          let d1 := (q2 - q0)%Z in let d2 := (q2 - q1)%Z in
          if (d1 * d2 <? 0)%Z then
            do inner <- mk_ctl atomic d1; do g <- mk_ctl inner d2; qthen_at d (qb g) mn
          else
            let near := if (Z.abs d2 <? Z.abs d1)%Z then d2 else d1 in
            let far := if (Z.abs d1 <? Z.abs d2)%Z then d2 else d1 in
            do inner <- mk_ctl atomic near; do g <- mk_ctl inner (far - near); qthen_at d (qb g) mn
      | _ => Err AssertionError
      end
  | QCtl c _ =>
      do mn <- py_min qs;
      match qs with
      | [q0; q1] => do g <- mk_ctl c (q1 - q0); qthen_at d (qb g) mn
      | _ => Err AssertionError
      end
  | _ => if List.length qs =? List.length (q_dom gate) then do mn <- py_min qs; qthen_at d (qb gate) mn else Err AssertionError
  end.

(** [Controlled.decompose] (965-987) *)
Definition decompose_ctl (c : qbox) (d : Z) : res qdiag :=
  if (d =? 1)%Z then Ok (qb (QCtl c d))
  else
    let n := List.length (q_dom (QCtl c d)) in
    let skipped := n - (1 + List.length (q_dom c)) in
    let pattern := if (0 <? d)%Z then 0 :: seq (skipped + 1) (n - (skipped + 1)) ++ seq 1 skipped
                   else (n - 1) :: seq 0 (n - 1) in
    do perm <- qperm (q_dom (QCtl c d)) pattern;
    do a <- qthen perm (qtensor (qb (QCtl c 1)) (Idn skipped));
    qthen a (qdagger perm).
(** [box.decompose()] if the box has it, else the box (493-494) *)
Definition decompose (b : qbox) : res qdiag := match b with QCtl c d => decompose_ctl c d | _ => Ok (qb b) end.

(** ** The linear map of a box ([array], 995-1010), acting on amplitudes.
    A state of [n] wires is a function from bit strings to amplitudes [K]; an operator maps states to states.
    [q_layers f] runs layers in turn, box [b] of a layer acting as [f b] on its own wires for every value of the others
    (this is what contracting the tensor network computes). *)
Section Array.
  Variable K : Type.
  Definition state := list bool -> K.
  Definition oper := state -> state.
  Definition on_wires (l m n : nat) (u : oper) : oper :=
    fun psi x => u (fun y => psi (firstn l x ++ y ++ skipn (l + n) x)) (firstn n (skipn l x)).
  Fixpoint q_layers (f : qbox -> oper) (ls : list (list wire * qbox * list wire)) : oper :=
    match ls with
    | [] => fun psi => psi
    | (l, b, r) :: ls' => fun psi => q_layers f ls' (on_wires (List.length l) (List.length (q_dom b)) (List.length (q_cod b)) (f b) psi)
    end.
  Definition op_swap : oper := fun psi x => match x with [u; v] => psi [v; u] | _ => psi x end.
  (** block matrix: identity if the first bit is 0, the controlled box on the rest if it is 1 (1001-1007) *)
  Definition op_ctl1 (u : oper) : oper :=
    fun psi x => match x with true :: y => u (fun z => psi (true :: z)) y | _ => psi x end.
  (** [array]: 734 (Swap), 996-1010 (Controlled; distance other than 1 through [decompose]); other boxes by [base].
      [decompose_ctl] only yields swaps and the distance-1 box, so the recursion is on the controlled box. *)
  Variable base : qbox -> oper.
  Fixpoint q_array (b : qbox) : oper :=
    match b with
    | QSwap _ _ => op_swap
    | QCtl c d =>
        if (d =? 1)%Z then op_ctl1 (q_array c)
        else match decompose_ctl c d with
             | Ok dg => q_layers (fun b' => match b' with QSwap _ _ => op_swap | _ => op_ctl1 (q_array c) end) (glayers dg)
             | Err _ => base b
             end
    | _ => base b
    end.
  (** the linear map of a circuit *)
  Definition q_eval (d : qdiag) : oper := q_layers q_array (glayers d).
End Array.

(** ** Exporting gates *)
(** the part of [box.name] before "(" (814, 864, 944, 1138) *)
Fixpoint upto_paren (s : string) : string :=
  match s with EmptyString => EmptyString | String a s' => if Ascii.eqb a "(" then EmptyString else String a (upto_paren s') end.
Fixpoint gtype (b : qbox) : string :=
  match b with
  | QBox n _ _ _ _ => upto_paren n
  | QRot AX _ => "Rx" | QRot AY _ => "Ry" | QRot AZ _ => "Rz"
  | QCtl c _ => ("C" ++ gtype c)%string
  | QKet x | QBra x | QBit x => if x then "1" else "0"
  | QDisc => "Discard" | QMix => "MixedState" | QMeas => "Measure" | QEnc => "Encode"
  | QScal _ _ => "" | QSwap _ _ => "SWAP" | QDag c => gtype c
  end.
Inductive gphase := PhNone | PhParam (p : param) | PhScalar (root : bool) (v : Q).
(** 1515-1541 *)
Record gate := Gate { g_type : string; g_qubits : list nat; g_phase : gphase; g_dagger : bool;
                      g_control : option (list nat); g_target : option nat }.
Fixpoint ins_sorted (x : nat) (l : list nat) : list nat :=
  match l with [] => [x] | y :: l' => if x <=? y then x :: l else y :: ins_sorted x l' end.
Fixpoint sorted_nat (l : list nat) : list nat := match l with [] => [] | x :: l' => ins_sorted x (sorted_nat l') end.
(** 1581-1584: distances, outermost first *)
Fixpoint ctl_dists (b : qbox) : list Z := match b with QCtl c d => d :: ctl_dists c | _ => [] end.
(** [l.insert(-1, x)] *)
Definition insert_m1 (l : list Z) (x : Z) : list Z := match rev l with [] => [x] | y :: r => rev r ++ [x; y] end.
(** 1587-1595 *)
Definition rel_step (rel : list Z) (dist : Z) : list Z :=
  if (0 <? dist)%Z then 0%Z :: map (fun i => (i + dist)%Z) rel
  else insert_m1 rel (fold_left Z.max rel 0%Z - dist)%Z.
Definition rel_idx (b : qbox) : list Z := fold_left rel_step (rev (ctl_dists b)) [0%Z].
(** [box.phase] of a Controlled (958-963) *)
Definition ctl_phase (c : qbox) : res gphase := match c with QRot _ p => Ok (PhParam p) | _ => Err AttributeError end.
Definition last_opt (l : list nat) : option nat := match rev l with [] => None | x :: _ => Some x end.
(** [Gate.from_box] (1544-1621) without [name]; [use_sympy] only changes the class of the symbol *)
Definition from_box (box0 : qbox) (offset : nat) : res gate :=
  let qubits := seq offset (List.length (q_dom box0)) in
  let '(box, dagger) := match box0 with QDag b => (b, true) | _ => (box0, false) end in
  let gt := gtype box in
  match box with
  | QRot _ p => Ok (Gate gt qubits (PhParam p) dagger None None)
  | QCtl c _ =>
      do iq <- mapM (py_index qubits) (rel_idx box);
      do ph <- (if (gt =? "CRx")%string || (gt =? "CRz")%string then ctl_phase c else Ok PhNone);
      Ok (Gate gt iq ph dagger (Some (sorted_nat (removelast iq))) (last_opt iq))
  | QScal r v => Ok (Gate "Scalar" qubits (PhScalar r v) dagger None None)
  | _ => Ok (Gate gt qubits PhNone dagger None None)
  end.

Definition is_ket (b : qbox) : bool := match b with QKet _ => true | _ => false end.
Definition count_q (t : list wire) : nat := List.length (filter (wire_eqb Qb) t).
Definition count_b (t : list wire) : nat := List.length (filter (wire_eqb Bt) t).
Fixpoint enumerate {A} (i : nat) (l : list A) : list (nat * A) := match l with [] => [] | x :: l' => (i, x) :: enumerate (S i) l' end.

(** [Diagram.is_circuital] (271-316) *)
Definition is_circuital (d : qdiag) : bool :=
  match gdom d with
  | _ :: _ => false
  | [] =>
    let num := List.length (filter (fun x => is_ket (gl_box x)) (glayers d)) in
    let ql := firstn num (glayers d) in
    if negb (forallb (fun x => is_ket (gl_box x)) ql) then false
    else if negb (forallb (fun x => match gl_right x with [] => true | _ => false end) ql) then false
    else
      let rest := enumerate 0 (skipn num (glayers d)) in
      let midx := map fst (filter (fun p => match gl_box (snd p) with QDisc | QBra _ => true | _ => false end) rest) in
      match midx with
      | [] => true
      | m :: ms =>
          let mmax := fold_left Nat.max ms m in let mmin := fold_left Nat.min ms m in
          forallb (fun p => match gl_box (snd p) with QDisc | QBra _ | QMeas => true | _ => negb ((mmin <? fst p) && (fst p <? mmax)) end) rest
      end
  end.

(** [CircuitInfo] (1625-1647); dictionaries as lists of pairs in insertion order (keys are pairwise distinct: a qubit is
    removed from [available_qubits] when it is used as a key) *)
Record cinfo := CI { ci_total : nat; ci_gates : list gate; ci_bitmap : list (nat * nat); ci_postmap : list (nat * bool); ci_discards : list nat }.
Fixpoint remove_first (x : nat) (l : list nat) : list nat :=
  match l with [] => [] | y :: l' => if x =? y then l' else y :: remove_first x l' end.
(** loop body of [readoff_circuital] (1683-1702) *)
Definition readoff_step (st : cinfo * list nat) (x : list wire * qbox * list wire) : res (cinfo * list nat) :=
  let '(ci, avail) := st in
  let take := match nth_error avail (count_q (gl_left x)) with Some q => Ok q | None => Err IndexError end in
  match gl_box x with
  | QKet _ => Ok st
  | QMeas => do qi <- take;
      Ok (CI (ci_total ci) (ci_gates ci) (ci_bitmap ci ++ [(qi, List.length (ci_bitmap ci))]) (ci_postmap ci) (ci_discards ci), remove_first qi avail)
  | QBra b => do qi <- take;
      Ok (CI (ci_total ci) (ci_gates ci) (ci_bitmap ci ++ [(qi, List.length (ci_bitmap ci))]) (ci_postmap ci ++ [(qi, b)]) (ci_discards ci), remove_first qi avail)
  | QDisc => do qi <- take;
      Ok (CI (ci_total ci) (ci_gates ci) (ci_bitmap ci) (ci_postmap ci) (ci_discards ci ++ [qi]), remove_first qi avail)
  | b => do g <- from_box b (List.length (gl_left x));
      Ok (CI (ci_total ci) (ci_gates ci ++ [g]) (ci_bitmap ci) (ci_postmap ci) (ci_discards ci), avail)
  end.
(** [readoff_circuital] (1650-1708) *)
Definition readoff (d : qdiag) : res cinfo :=
  if negb (is_circuital d) then Err AssertionError
  else
    let total := List.length (filter (fun x => is_ket (gl_box x)) (glayers d)) in
    rmap fst (foldM readoff_step (glayers d) (CI total [] [] [] [], seq 0 total)).

(** ** Generated boxes *)
(** [Ket( *bits )] / [Bra( *bits )] (754-758, 787-791); no argument is a TypeError *)
Definition tensor_all (ds : list qdiag) : qdiag := gtensor_list (gid []) ds.
Definition kets (bits : list bool) : res qdiag :=
  match bits with [] => Err TypeError | [b] => Ok (qb (QKet b)) | _ => Ok (tensor_all (map (fun b => qb (QKet b)) bits)) end.
Definition bras (bits : list bool) : res qdiag :=
  match bits with [] => Err TypeError | [b] => Ok (qb (QBra b)) | _ => Ok (tensor_all (map (fun b => qb (QBra b)) bits)) end.
(** [init_and_discard] (369-381) *)
Definition wires_eqb (s t : list wire) : bool := gteqb wire_eqb s t.
Definition init_and_discard (c : qdiag) : res qdiag :=
  do c1 <- (match gdom c with
            | [] => Ok c
            | t => qthen (tensor_all (map (fun x => match x with Qb => qb (QKet false) | Bt => qb (QBit false) end) t)) c
            end);
  if negb (wires_eqb (gcod c1) (repeat Bt (List.length (gcod c1)))) then
    qthen c1 (tensor_all (map (fun x => match x with Qb => qb QDisc | Bt => qid [Bt] end) (gcod c1)))
  else Ok c1.
(** [generate_cap] (609-637), [generate_cup] (641-669) *)
Definition atomic_cap : res qdiag :=
  do a <- qthen (qtensor (qb (QKet false)) (qb (QKet false))) (qtensor (qtensor (qb gH) (qb sqrt2)) (qid [Qb]));
  qthen a (qb gCX).
Definition atomic_cup : res qdiag :=
  do a <- qthen (qb gCX) (qtensor (qtensor (qb gH) (qb sqrt2)) (qid [Qb]));
  qthen a (qtensor (qb (QBra false)) (qb (QBra false))).
Definition generate_cap (l r : list wire) : res qdiag :=
  if negb (wires_eqb l r) then Err AssertionError
  else do ac <- atomic_cap; foldM (fun d i => qthen_at d ac (Z.of_nat i)) (seq 0 (List.length l)) (qid []).
Definition generate_cup (l r : list wire) : res qdiag :=
  if negb (wires_eqb l r) then Err AssertionError
  else do ac <- atomic_cup;
       foldM (fun d i => qthen_at d ac (Z.of_nat (List.length l) - Z.of_nat i - 1)) (seq 0 (List.length l)) (qid (l ++ r)).
(** [generate_spider] (673-700); the recursion is bounded by fuel (running out is [OtherError]) *)
Fixpoint generate_spider (fuel : nat) (t : list wire) (i o : nat) : res qdiag :=
  match fuel with
  | O => Err OtherError
  | S f =>
    if (i =? 1) && (o =? 1) then Ok (qid t)
    else if wires_eqb t [] then Ok (qid [])
    else if negb (wires_eqb t [Qb]) then Err NotImplementedError
    else if (i =? 1) && (o =? 0) then qthen (qtensor (qb sqrt2) (qb gH)) (qb (QBra false))
    else if (i =? 2) && (o =? 1) then qthen (qb gCX) (qtensor (qid [Qb]) (qb (QBra false)))
    else if i <? o then rmap qdagger (generate_spider f t o i)
    else if negb (o =? 1) then
      do a <- generate_spider f t i 1; do b <- generate_spider f t 1 o; qthen a b
    else if i mod 2 =? 1 then
      do a <- generate_spider f t (i - 1) 1; do b <- generate_spider f t 2 1; qthen (qtensor a (qid t)) b
    else
      do h <- generate_spider f t (i / 2) 1; do b <- generate_spider f t 2 1; qthen (qtensor h h) b
  end.
