(** Specification of substitution (C83). *)
From Coq Require Import QArith.
From Verif Require Import PyBase LamModel LamSpec FsModel.
Close Scope Q_scope. Set Implicit Arguments. Unset Strict Implicit.
Section Spec.
  Variables (V : Type) (smul : Q -> V -> V).
  (** the datum that the tensor of a box is computed from: that of the box at the bottom *)
  Inductive core (h : heap V) : nat -> datum V -> Prop :=
  | core_box r : o_kind (geto h r) = KBox -> core h r (o_data (geto h r))
  | core_in r r' d : o_kind (geto h r) = KCtl r' \/ o_kind (geto h r) = KDag r' -> core h r' d -> core h r d.
  (** a datum with the symbols replaced by the weights at their positions *)
  Inductive subst (symbols : list symbol) (ws : list V) : datum V -> datum V -> Prop :=
  | su_sym s x : given symbols ws (s_name s) (s_dd s) (s_dc s) x -> subst symbols ws (DSym s) (DVal (smul (s_scale s) x))
  | su_val v : subst symbols ws (DVal v) (DVal v)
  | su_none : subst symbols ws DNone DNone.
  (** heaps as the constructors leave them: boxes made before the boxes around them, which copy their data; no arrays of symbols; caches empty or right *)
  Definition built (h : heap V) : Prop := forall r, (r < List.length h)%nat ->
    (match o_kind (geto h r) with KBox => True | KCtl r' | KDag r' => (r' < r)%nat /\ o_data (geto h r) = o_data (geto h r') end) /\
    (match o_data (geto h r) with DArr _ => False | _ => True end) /\ (o_cache (geto h r) = None \/ o_cache (geto h r) = Some (free_syms (o_data (geto h r)))).
  Definition same_boxes (h h' : heap V) : Prop := List.length h' = List.length h /\ forall r, o_kind (geto h' r) = o_kind (geto h r).
  (** diagrams whose boxes are in the heap *)
  Definition in_heap (h : heap V) (ds : list (list nat)) : Prop := forall d r, In d ds -> In r d -> (r < List.length h)%nat.
  Definition known (symbols : list symbol) (d : datum V) : Prop := forall s, In s (free_syms d) -> In s symbols.
End Spec.
(** lists of symbols in the order of their names *)
Definition by_name (l : list symbol) : Prop := forall i j a b, (i < j)%nat -> nth_error l i = Some a -> nth_error l j = Some b -> String.leb (s_name a) (s_name b) = true.
