(** Model of [lambdify]: lambeq/backend/symbol.py 22-111, tensor.py 234-283 ([free_symbols], [Box.lambdify]), 312-330 ([Diagram.lambdify]),
    610-612 ([Daggered.lambdify]); quantum.py 842-846 ([Parametrized.lambdify]), 989-993 ([Controlled.lambdify]).
    [f.lambdify(symbols)(xs)] is one function of [symbols] and [xs]: all exceptions are raised by the call. *)
From Coq Require Import QArith.
From Verif Require Import PyBase DiagModel GDiag QModel TnModel.
Close Scope Q_scope. Set Implicit Arguments. Unset Strict Implicit.

(** symbol.py 41-44; [==] compares all four fields; scales are rationals *)
Record symbol := Sym { s_name : string; s_dd : Z; s_dc : Z; s_scale : Q }.
Definition sym_eqb (a b : symbol) : bool := (s_name a =? s_name b)%string && (s_dd a =? s_dd b)%Z && (s_dc a =? s_dc b)%Z && Qeq_bool (s_scale a) (s_scale b).
(** 52-54 *)
Definition unscaled (s : symbol) : symbol := Sym (s_name s) (s_dd s) (s_dc s) 1%Q.
(** [symbol.index(x)] *)
Fixpoint sym_index (l : list symbol) (x : symbol) : res nat :=
  match l with [] => Err ValueError | y :: l' => if sym_eqb y x then Ok 0 else rmap S (sym_index l' x) end.

Section Data.
  Variables (V : Type) (smul : Q -> V -> V).
  (** [lambdify([..symbols], s)( *xs )] for a symbol [s] (110-111) *)
  Definition lam_sym (symbols : list symbol) (xs : list V) (s : symbol) : res V :=
    do i <- sym_index symbols (unscaled s); do x <- get xs i;
    Ok (if negb (Qeq_bool (s_scale s) 1) then smul (s_scale s) x else x).
  (** box data: a symbol, a number or numerical array, None, an array of objects *)
  Inductive datum := DSym (s : symbol) | DVal (v : V) | DNone | DArr (l : list datum).
  (** [lambdify(symbols, data)( *xs )] (107-111) *)
  Definition lam_data (symbols : list symbol) (xs : list V) (e : datum) : res datum :=
    match e with DSym s => rmap DVal (lam_sym symbols xs s) | _ => Ok e end.
  (** [free_symbols] (tensor.py 234-249) *)
  Fixpoint free_syms (e : datum) : list symbol :=
    match e with
    | DSym s => [unscaled s]
    | DArr l => (fix go l := match l with [] => [] | x :: l' => free_syms x ++ go l' end) l
    | _ => []
    end.
  (** tensor boxes: [Box], [Daggered], and the boxes without data fields of their own (swaps, cups, caps, spiders) *)
  Inductive lbox := LB (name : string) (dom cod : list nat) (data : datum) (z : Z) | LDag (b : lbox) | LOther (name : string) (dom cod : list nat).
  Fixpoint lb_dom (b : lbox) : list nat := match b with LB _ d _ _ _ => d | LDag c => lb_cod c | LOther _ d _ => d end
  with lb_cod (b : lbox) : list nat := match b with LB _ _ c _ _ => c | LDag c => lb_dom c | LOther _ _ c => c end.
  (** 276-281 ([type(self)(name, dom, cod, data)]: [z] takes its default value 0) and 610-612 *)
  Fixpoint lam_box (symbols : list symbol) (xs : list V) (b : lbox) : res lbox :=
    match b with
    | LB n d c data z =>
        if existsb (fun x => existsb (sym_eqb x) (free_syms data)) symbols then do v <- lam_data symbols xs data; Ok (LB n d c v 0%Z) else Ok b
    | LDag c => do c' <- lam_box symbols xs c; Ok (LDag c')
    | LOther _ _ _ => Ok b
    end.
  (** 312-330 *)
  Definition lam_diag (d : gdiag nat lbox) (symbols : list symbol) (xs : list V) : res (gdiag nat lbox) :=
    do ls <- mapM (fun x => do b <- lam_box symbols xs (gl_box x); Ok (gl_left x, b, gl_right x)) (glayers d); Ok (GD (gdom d) (gcod d) ls).
End Data.
Arguments DNone {V}. Arguments DSym {V}. Arguments LOther {V}.

(** quantum: phases are symbols or rationals *)
Definition lam_param (symbols : list symbol) (xs : list Q) (p : param) : res param :=
  match p with PSym n a b s => rmap PVal (lam_sym Qmult symbols xs (Sym n a b s)) | PVal v => Ok p end.
(** 842-846 (rotations), 989-993; boxes of the other classes hold no symbols and return themselves (tensor.py 276-277); tensor.py 610-612 *)
Fixpoint lam_q (symbols : list symbol) (xs : list Q) (b : qbox) : res qbox :=
  match b with
  | QRot a p => do p' <- lam_param symbols xs p; Ok (QRot a p')
  | QCtl c d => do c' <- lam_q symbols xs c; mk_ctl c' d
  | QDag c => do c' <- lam_q symbols xs c; Ok (q_dag c')
  | _ => Ok b
  end.
Definition lam_qdiag (d : qdiag) (symbols : list symbol) (xs : list Q) : res qdiag :=
  do ls <- mapM (fun x => do b <- lam_q symbols xs (gl_box x); Ok (gl_left x, b, gl_right x)) (glayers d); Ok (GD (gdom d) (gcod d) ls).
