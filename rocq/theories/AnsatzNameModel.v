(** Model of [str] on types (lambeq/backend/grammar.py 179-185), [BaseAnsatz._summarise_box] (lambeq/ansatz/base.py 62-71),
    functors into circuits (grammar.py 1977-2103 with target category quantum) and [CircuitAnsatz.__call__] (lambeq/ansatz/circuit.py 123-150).
    Simplifications: the [z] of plain quantum boxes is not kept by [rotate]; [n_ancillas] is a function of the box; the functor caches are left out (C15). *)
From Coq Require Import QArith Ascii.
From Verif Require Import PyBase TyModel DiagModel GDiag QModel AnsatzModel.
Close Scope Q_scope. Open Scope string_scope. Set Implicit Arguments. Unset Strict Implicit.

(** [s * n] for an integer *)
Fixpoint str_rep (s : string) (n : nat) : string := match n with O => "" | S m => s ++ str_rep s m end.
(** grammar.py 183: [f'{name}{".l"*(-z)}{".r"*z}'] *)
Definition str_atom (a : atom) : string := fst a ++ str_rep ".l" (Z.to_nat (- snd a)) ++ str_rep ".r" (Z.to_nat (snd a)).
Fixpoint join (sep : string) (l : list string) : string := match l with [] => "" | [x] => x | x :: l' => x ++ sep ++ join sep l' end.
(** grammar.py 179-185 *)
Definition str_ty (t : ty) : string := match t with [] => "Ty()" | _ => join " @ " (map str_atom t) end.
(** [s.replace(' @ ', '@')] *)
Fixpoint squeeze (s : string) : string :=
  match s with
  | EmptyString => EmptyString
  | String a r => match a, r with " "%char, String "@"%char (String " "%char r') => String "@"%char (squeeze r') | _, _ => String a (squeeze r) end
  end.
(** [raw.translate({ord(c): f'\\{c}' for c in ':, '})] *)
Definition special (a : ascii) : bool := Ascii.eqb a ":" || Ascii.eqb a "," || Ascii.eqb a " ".
Fixpoint escape (s : string) : string := match s with EmptyString => EmptyString | String a r => if special a then String "\" (String a (escape r)) else String a (escape r) end.
(** base.py 62-71 *)
Definition summarise (b : box) : string :=
  let d := match b_dom b with [] => "" | t => squeeze (str_ty t) end in
  let c := match b_cod b with [] => "" | t => squeeze (str_ty t) end in
  escape (b_name b ++ "_" ++ d ++ "_" ++ c).

Close Scope string_scope.
(** [rotate] of quantum types (tensor.py 93-97) and boxes (quantum.py 594, 602-605, 1016-1022, tensor.py 219-236, grammar.py 1684-1686, 1873-1879) *)
Definition rotw (z : Z) (t : list wire) : list wire := if Z.odd z then rev t else t.
Fixpoint q_rot (z : Z) (b : qbox) : qbox :=
  match b with
  | QBox n d c m s => QBox n (rotw z d) (rotw z c) m s
  | QRot AY _ => b
  | QRot _ _ => if Z.odd z then q_dag b else b
  | QCtl c d => if Z.odd z then QCtl (q_rot z c) (- d) else b
  | QSwap x y => if Z.odd z then QSwap y x else b
  | QDag c => QDag (q_rot z c)
  | _ => b
  end.
(** grammar.py 622-632, 1050-1054 *)
Definition q_rot_layer (z : Z) (x : list wire * qbox * list wire) : list wire * qbox * list wire :=
  let '(l, b, r) := x in if Z.odd z then (rotw z r, q_rot z b, rotw z l) else (rotw z l, q_rot z b, rotw z r).
Definition qrotate (z : Z) (d : qdiag) : qdiag := GD (rotw z (gdom d)) (rotw z (gcod d)) (map (q_rot_layer z) (glayers d)).

Section Functor.
  Variable ob : string -> res (list wire).
  Variable car : box -> res qdiag.
  (** as [FunctorModel.F_ty], [f_check], [F_basic], [F_box], [F_step], [F_diag], with the special boxes of the quantum category (quantum.py 609-744) *)
  Definition Q_atom (a : atom) : res (list wire) := if (snd a =? 0)%Z then ob (fst a) else rmap (rotw (snd a)) (ob (fst a)).
  Definition Q_ty (t : ty) : res (list wire) := rmap (@List.concat _) (mapM Q_atom t).
  Definition q_check (d c : ty) (r : res qdiag) : res qdiag :=
    do ret <- r; do fc <- Q_ty c; do fd <- Q_ty d;
    if negb (wires_eqb (gcod ret) fc) || negb (wires_eqb (gdom ret) fd) then Err TypeError else Ok ret.
  Definition Q_basic (b : box) : res qdiag :=
    if (b_z b =? 0)%Z then car b else rmap (qrotate (b_z b)) (q_check (b_dom (b_unwind b)) (b_cod (b_unwind b)) (car (b_unwind b))).
  Fixpoint Q_box (b : box) : res qdiag :=
    q_check (b_dom b) (b_cod b)
      match b with
      | Cap l r _ => do fl <- Q_ty [l]; do fr <- Q_ty [r]; generate_cap fl fr
      | Cup l r _ => do fl <- Q_ty [l]; do fr <- Q_ty [r]; generate_cup fl fr
      | Swap l r => do fl <- Q_ty [l]; do fr <- Q_ty [r]; gswap wire_eqb q_dom q_cod QSwap fl fr
      | Spider t n m => do ft <- Q_ty [t]; generate_spider (n + m + 4) ft n m
      | Dagg b' => rmap qdagger (Q_box b')
      | Box _ _ _ _ | Word _ _ _ | Frame _ _ _ _ _ | DagFrame _ _ _ _ _ => Q_basic b
      end.
  Definition Q_step (acc : qdiag) (x : layer) : res qdiag :=
    let '(l, b, r) := x in do fl <- Q_ty l; do fb <- Q_box b; do fr <- Q_ty r; qthen acc (qtensor (qtensor (qid fl) fb) (qid fr)).
  Definition Q_diag (d : diagram) : res qdiag :=
    q_check (dom d) (cod d) match layers d with [] => rmap qid (Q_ty (dom d)) | ls => do t <- Q_ty (dom d); foldM Q_step ls (qid t) end.
End Functor.

Section Ansatz.
  Variables (A : ansatz) (ob_map : list (string * nat)) (anc : box -> nat).
  Fixpoint lookup_ob (m : list (string * nat)) (n : string) : res nat := match m with [] => Err KeyError | (k, v) :: m' => if (n =? k)%string then Ok v else lookup_ob m' n end.
  (** circuit.py 104-106, 146-147: [qubit ** n] *)
  Definition a_ob (n : string) : res (list wire) := rmap qubits (lookup_ob ob_map n).
  (** 123-131 *)
  Definition ob_size (t : ty) : res nat := do l <- mapM (Q_atom a_ob) t; Ok (list_sum (map (@List.length wire) l)).
  (** 160-164 *)
  Definition a_ar (b : box) : res qdiag := do d <- ob_size (b_dom b); do c <- ob_size (b_cod b); ar A (summarise b) d c (anc b).
  Definition is_frame (b : box) : bool := match b with Frame _ _ _ _ _ | DagFrame _ _ _ _ _ => true | _ => false end.
  (** 114-121: [__call__]; the RuntimeError is [OtherError] *)
  Definition apply_ansatz (d : diagram) : res qdiag := if existsb is_frame (boxes d) then Err OtherError else Q_diag a_ob a_ar d.
End Ansatz.
