(** Model of parameter substitution in the models: [Model.from_diagrams] (lambeq/training/model.py 159-183), [QuantumModel._fast_subs] (quantum_model.py 125-149), [PytorchModel.get_diagram_output] (pytorch_model.py 160-175),
    with the box objects they mutate: [free_symbols] is a cached property (lambeq/backend/tensor.py 239-254), [Controlled] and [Daggered] hold a copy of the data of the box inside and pass assignments on (quantum.py 940-957, 1134-1148; tensor.py 596-608).
    Boxes are objects in a heap and diagrams are lists of references, so that one object may occur several times; [fast_deepcopy] gives a copy of the whole heap, which is what is modified.
    Simplifications: the fields of a box other than those written or read here are left out; sets of symbols are lists. *)
From Coq Require Import QArith.
From Verif Require Import PyBase LamModel MiscModel.
Close Scope Q_scope. Set Implicit Arguments. Unset Strict Implicit.

Section Fs.
  Variables (V : Type) (smul : Q -> V -> V).
  (** a plain box, a controlled box and a daggered box *)
  Inductive kind := KBox | KCtl (r : nat) | KDag (r : nat).
  Record obj := Obj { o_kind : kind; o_data : datum V; o_cache : option (list symbol) }.
  Definition heap := list obj.
  Definition geto (h : heap) (r : nat) : obj := nth r h (Obj KBox DNone None).
  Definition seto (h : heap) (r : nat) (o : obj) : heap := (firstn r h ++ o :: skipn (S r) h)%list.
  (** tensor.py 239-254: reading the cached property *)
  Definition free_of (h : heap) (r : nat) : list symbol * heap :=
    let o := geto h r in
    match o_cache o with Some l => (l, h) | None => let l := free_syms (o_data o) in (l, if (r <? List.length h)%nat then seto h r (Obj (o_kind o) (o_data o) (Some l)) else h) end.
  (** [b.data = v] through [__setattr__]; [fuel] bounds the nesting *)
  Fixpoint set_data (fuel : nat) (h : heap) (r : nat) (v : datum V) : heap :=
    match fuel with
    | O => h
    | S f => let o := geto h r in
             let h1 := match o_kind o with KBox => h | KCtl r' | KDag r' => set_data f h r' v end in
             let o1 := geto h1 r in if (r <? List.length h1)%nat then seto h1 r (Obj (o_kind o1) v (o_cache o1)) else h1
    end.
  (** [while hasattr(b, 'controlled'): b = b.controlled] *)
  Fixpoint descend (fuel : nat) (h : heap) (r : nat) : nat := match fuel with O => r | S f => match o_kind (geto h r) with KCtl r' => descend f h r' | _ => r end end.
  (** [del b.free_symbols] *)
  Definition del_cache (h : heap) (r : nat) : heap := let o := geto h r in seto h r (Obj (o_kind o) (o_data o) None).
  Definition params (symbols : list symbol) (ws : list V) : list (symbol * V) := fold_left (fun d p => d_set sym_eqb (fst p) (snd p) d) (combine symbols ws) [].
  Definition look_up (ps : list (symbol * V)) (s : symbol) : res V := match d_get sym_eqb s ps with Some v => Ok v | None => Err KeyError end.
  (** quantum_model.py 132-148 *)
  Definition subs_box (ps : list (symbol * V)) (h : heap) (r : nat) : res heap :=
    let '(fs, h1) := free_of h r in
    match fs with
    | [] => Ok h1
    | _ =>
        let k := descend (List.length h1) h1 r in
        let '(syms, h2) := free_of h1 k in
        do values <- mapM (look_up ps) syms;
        do v <- lam_data smul syms values (o_data (geto h2 k));
        Ok (del_cache (set_data (List.length h2) h2 k v) k)
    end.
  Definition fast_subs (symbols : list symbol) (ws : list V) (h : heap) (diagrams : list (list nat)) : res heap :=
    let ps := params symbols ws in foldM (fun h d => foldM (fun h r => subs_box ps h r) d h) diagrams h.
  (** pytorch_model.py 160-170 *)
  Definition torch_box (ps : list (symbol * V)) (h : heap) (r : nat) : res heap :=
    match o_data (geto h r) with DSym s => do v <- look_up ps s; Ok (set_data (List.length h) h r (DVal v)) | _ => Ok h end.
  Definition torch_subs (symbols : list symbol) (ws : list V) (h : heap) (diagrams : list (list nat)) : res heap :=
    let ps := params symbols ws in foldM (fun h d => foldM (fun h r => torch_box ps h r) d h) diagrams h.
End Fs.
(** model.py 179-183: the set of the free symbols of all diagrams, sorted by (name, scale) (symbol.py [__lt__]); the set keeps the first of equal symbols and its order before sorting is that of insertion *)
Definition sym_ltb (a b : symbol) : bool := match String.compare (s_name a) (s_name b) with Lt => true | Gt => false | Eq => negb (Qle_bool (s_scale b) (s_scale a)) end.
Fixpoint insert_sym (s : symbol) (l : list symbol) : list symbol := match l with [] => [s] | x :: l' => if sym_ltb s x then s :: l else x :: insert_sym s l' end.
Definition sym_set (l : list symbol) : list symbol := fold_left (fun acc s => if existsb (sym_eqb s) acc then acc else (acc ++ [s])%list) l [].
Definition model_symbols (free : list (list symbol)) : list symbol := fold_left (fun acc s => insert_sym s acc) (sym_set (List.concat free)) [].
(** tensor.py 331-332: [diagram.free_symbols] *)
Definition diagram_free V (h : heap V) (d : list nat) : list symbol := List.concat (map (fun r => fst (free_of h r)) d).
