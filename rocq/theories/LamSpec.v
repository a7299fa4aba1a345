(** What substituting values for symbols means, independently of the code. *)
From Coq Require Import QArith.
From Verif Require Import PyBase GDiag QModel LamModel.
Close Scope Q_scope. Set Implicit Arguments. Unset Strict Implicit.
(** the value given to a symbol by the lists: the one at its position *)
Definition given V (symbols : list symbol) (xs : list V) (n : string) (a b : Z) (x : V) : Prop :=
  exists i, nth_error symbols i = Some (Sym n a b 1%Q) /\ nth_error xs i = Some x.
(** a list of distinct plain symbols *)
Definition plain (symbols : list symbol) : Prop := NoDup symbols /\ Forall (fun s => s_scale s = 1%Q) symbols.
(** circuits: each occurrence of [s * symbol] becomes [s * value]; everything else is unchanged *)
Inductive q_inst (symbols : list symbol) (xs : list Q) : qbox -> qbox -> Prop :=
| qi_sym a n dd dc s x v : given symbols xs n dd dc x -> (v == s * x)%Q -> q_inst symbols xs (QRot a (PSym n dd dc s)) (QRot a (PVal v))
| qi_val a v : q_inst symbols xs (QRot a (PVal v)) (QRot a (PVal v))
| qi_ctl c c' d : q_inst symbols xs c c' -> q_inst symbols xs (QCtl c d) (QCtl c' d)
| qi_dag c c' : q_inst symbols xs c c' -> q_inst symbols xs (QDag c) (QDag c')
| qi_other b : match b with QRot _ _ | QCtl _ _ | QDag _ => False | _ => True end -> q_inst symbols xs b b.
Definition layer_inst A B (R : B -> B -> Prop) (x y : list A * B * list A) : Prop := gl_left x = gl_left y /\ gl_right x = gl_right y /\ R (gl_box x) (gl_box y).
Definition diag_inst A B (R : B -> B -> Prop) (d e : gdiag A B) : Prop := gdom e = gdom d /\ gcod e = gcod d /\ Forall2 (layer_inst R) (glayers d) (glayers e).
(** symbols of a circuit box, without scale *)
Fixpoint q_syms (b : qbox) : list symbol := match b with QRot _ (PSym n dd dc _) => [Sym n dd dc 1%Q] | QCtl c _ | QDag c => q_syms c | _ => [] end.
(** boxes as the constructors and [dagger] make them: non-zero distances; [Daggered] only around boxes that have no other adjoint *)
Fixpoint q_made (b : qbox) : Prop := match b with QCtl c d => d <> 0%Z /\ q_made c | QDag c => q_dag c = QDag c /\ q_made c | _ => True end.
(** tensor boxes: a box whose symbol is in the list gets its value, the others are unchanged *)
Inductive t_inst V (smul : Q -> V -> V) (symbols : list symbol) (xs : list V) : lbox V -> lbox V -> Prop :=
| ti_sym n d c s z x : given symbols xs (s_name s) (s_dd s) (s_dc s) x -> t_inst smul symbols xs (LB n d c (DSym s) z) (LB n d c (DVal (smul (s_scale s) x)) z)
| ti_free n d c s z : ~ In (unscaled s) symbols -> t_inst smul symbols xs (LB n d c (DSym s) z) (LB n d c (DSym s) z)
| ti_dag b b' : t_inst smul symbols xs b b' -> t_inst smul symbols xs (LDag b) (LDag b')
| ti_const n d c v z : t_inst smul symbols xs (LB n d c (DVal v) z) (LB n d c (DVal v) z)
| ti_none n d c z : t_inst smul symbols xs (LB n d c DNone z) (LB n d c DNone z)
| ti_other n d c : t_inst smul symbols xs (LOther n d c) (LOther n d c).
(** no array of symbols, and no conjugated box with a symbol *)
Fixpoint t_simple V (b : lbox V) : Prop := match b with LB _ _ _ (DArr _) _ => False | LB _ _ _ (DSym _) z => z = 0%Z | LDag c => t_simple c | _ => True end.
