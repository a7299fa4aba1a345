(** Model of lambeq/ansatz/tensor.py: [TensorAnsatz._ar], [_generate_directed_dom_cod] (55-109), [MPSAnsatz._split_ar] (202-222) and
    [SpiderAnsatz._split_ar] (258-277), with the functors they are called from (grammar.py 1977-2103; FunctorModel.v).
    Simplifications: [max_order] and dimensions are naturals; the recursion of [_split_ar] through [split_functor] is bounded by fuel
    (running out is [OtherError]). *)
From Verif Require Import PyBase TyModel TyFacts DiagModel BoxEq FunctorModel RewModel AnsatzModel AnsatzNameModel.
Open Scope string_scope. Set Implicit Arguments. Unset Strict Implicit.

(** [range(0, n, step)] *)
Definition range0 (n step : nat) : list nat := map (fun i => i * step) (seq 0 ((n + step - 1) / step)).
Definition upd_first {X} (f : X -> X) (l : list X) : list X := match l with [] => [] | x :: l' => f x :: l' end.
Definition upd_last {X} (f : X -> X) (l : list X) : list X := rev (upd_first f (rev l)).
(** [f'{name}_{i}'] *)
Definition part_name (name : string) (i : nat) : string := name ++ "_" ++ str_nat i.
Definition zn (n : nat) : option Z := Some (Z.of_nat n).
(** [BOND_TYPE] (161) *)
Definition bond : atom := ("B", 0%Z).
(** 207-222: the words and the cups of a domain-less box *)
Definition word_diag (w : string * ty) : diagram := to_diag (Word (fst w) (snd w) 0).
Definition mps_split (name : string) (c : ty) (order : nat) : res diagram :=
  let step := order - 2 in
  let words := map (fun '(i, start) => (part_name name i, ([rot_atom 1 bond] ++ py_slice c (zn start) (zn (start + step)) ++ [bond])%list)) (enum 0 (range0 (List.length c) step)) in
  do cup <- cups [bond] [rot_atom 1 bond] false;
  let cs := flat_map (fun w => [id (py_slice (snd w) (Some 1%Z) (Some (-1)%Z)); cup]) words in
  match words with
  | [] => Err IndexError
  | _ => let words1 := upd_first (fun w => (fst w, py_slice (snd w) (Some 1%Z) None)) words in
         let words2 := upd_last (fun w => (fst w, py_slice (snd w) None (Some (-1)%Z))) words1 in
         d_then (tensor_list (id []) (map word_diag words2)) (tensor_list (id []) (py_slice cs None (Some (-1)%Z)))
  end.
(** 263-277 *)
Definition spider_split (name : string) (c : ty) (order : nat) : res diagram :=
  let step := order - 1 in
  let words := map (fun '(i, start) => (part_name name i, py_slice c (zn start) (zn (start + step + 1)))) (enum 0 (range0 (List.length c - 1) step)) in
  do ss <- mapM (fun w => do s <- spider (py_slice (snd w) (Some (-1)%Z) None) 2 1; Ok [id (py_slice (snd w) (Some 1%Z) (Some (-1)%Z)); s]) words;
  let spiders := (id (py_slice c None (Some 1%Z)) :: List.concat ss)%list in
  d_then (tensor_list (id []) (map word_diag words)) (tensor_list (id []) (upd_last (fun s => id (cod s)) spiders)).
Inductive split_kind := MPS | SpiderK.
(** the identity on objects: [ob=lambda _, ob: ob] *)
Definition id_ob (n : string) : res ty := Ok [(n, 0%Z)].
(** 202-206, 258-262 *)
Fixpoint split_ar (k : split_kind) (order : nat) (left : bool) (fuel : nat) (b : box) : res diagram :=
  match fuel with
  | O => Err OtherError
  | S f =>
    if (List.length (b_dom b) + List.length (b_cod b) <=? order)%nat then Ok (to_diag (Box (b_name b ++ "_0") (b_dom b) (b_cod b) (b_z b)))
    else if collapse_matches b then do d <- collapse_rewrite left b; F_diag id_ob (split_ar k order left f) d
    else match k with MPS => mps_split (b_name b) (b_cod b) order | SpiderK => spider_split (b_name b) (b_cod b) order end
  end.
(** [SplitTensorAnsatz.__call__] (149-155) before the tensor functor; the RuntimeError is [OtherError] *)
Definition split_diag (k : split_kind) (order : nat) (left : bool) (fuel : nat) (d : diagram) : res diagram :=
  if existsb is_frame (boxes d) then Err OtherError else F_diag id_ob (split_ar k order left fuel) d.
(** the constructor checks (184-187, 246-247) *)
Definition mps_check (order : nat) (keys : list string) : res unit :=
  if (order <? 3)%nat then Err ValueError else if existsb (String.eqb "B") keys then Err ValueError else Ok tt.
Definition spider_check (order : nat) : res unit := if (order <? 2)%nat then Err ValueError else Ok tt.

(** ** Directed dimensions *)
(** [Dim( *dims )] (backend/tensor.py 72-84) keeps the dimensions above one *)
Definition dim (l : list nat) : list nat := filter (fun x => (1 <? x)%nat) l.
Section Dims.
  Variable ob : string -> res (list nat).
  (** the tensor functor on types; [Dim.rotate] (93-97) reverses for odd windings *)
  Definition D_atom (a : atom) : res (list nat) := if (snd a =? 0)%Z then rmap dim (ob (fst a)) else rmap (fun l => if Z.odd (snd a) then rev (dim l) else dim l) (ob (fst a)).
  Definition D_ty (t : ty) : res (list nat) := rmap (@List.concat _) (mapM D_atom t).
  (** [math.prod] *)
  Definition prod (l : list nat) : nat := fold_left Nat.mul l 1.
  (** 91-104 *)
  Definition directed (b : box) : ty * ty :=
    let '(d, c) := fold_left (fun '(d, c) a => if Z.odd (snd a) then ((d ++ [a])%list, c) else (d, (c ++ [a])%list)) (b_cod b) (@nil atom, @nil atom) in
    fold_left (fun '(d, c) a => if Z.odd (snd a) then (d, (c ++ [a])%list) else ((d ++ [a])%list, c)) (b_dom b) (d, c).
  (** 55-68: the symbol's name and sizes, and the shape of the tensor *)
  Definition tensor_ar (b : box) : res (string * (nat * nat) * (list nat * list nat)) :=
    let '(d, c) := directed b in
    do fd <- D_ty d; do fc <- D_ty c; do bd <- D_ty (b_dom b); do bc <- D_ty (b_cod b);
    Ok (summarise b, (prod fd, prod fc), (bd, bc)).
End Dims.
