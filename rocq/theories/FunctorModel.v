(** Model of [lambeq/backend/grammar.py: class Functor] (lines 1977-2103) and of the
    [apply_functor] methods it dispatches to, for functors into the grammar category.

    Simplifications: the user callbacks [ob] and [ar] are functions of their entity only (they
    do not call the functor back and have no state of their own); [custom_ob] receives the
    name of an atomic type with z = 0, which is all the code ever passes to it
    (grammar.py 347-356); a [Box] returned by a callback is represented by its one-box diagram
    ([Box.to_diagram], which every use of the result applies). *)
From Verif Require Import PyBase TyModel TyFacts DiagModel DiagSpec BoxEq.
Set Implicit Arguments.

Section Functor.
  Variable custom_ob : string -> res ty.
  Variable custom_ar : box -> res diagram.

  (** ** The functor without its caches *)

  (** grammar.py 347-356 [Ty.apply_functor] on an atomic type *)
  Definition F_atom (a : atom) : res ty :=
    if (snd a =? 0)%Z then custom_ob (fst a) else rmap (rot (snd a)) (custom_ob (fst a)).
  (** grammar.py 347-356 on a complex type, 2059-2060 on the empty type *)
  Definition F_ty (t : ty) : res ty := rmap (@List.concat _) (mapM F_atom t).

  (** grammar.py 2082-2090: the type check on the image [r] of an arrow from [d] to [c] *)
  Definition f_check (d c : ty) (r : res diagram) : res diagram :=
    do ret <- r; do fc <- F_ty c; do fd <- F_ty d;
    if negb (ty_eqb (cod ret) fc) || negb (ty_eqb (dom ret) fd) then Err TypeError else Ok ret.

  (** grammar.py 527-531 [Box.apply_functor]; the unwound box is again mapped through
      [Functor.__call__], hence checked *)
  Definition F_basic (b : box) : res diagram :=
    if (b_z b =? 0)%Z then custom_ar b
    else rmap (d_rotate (b_z b))
              (f_check (b_dom (b_unwind b)) (b_cod (b_unwind b)) (custom_ar (b_unwind b))).

  (** grammar.py 2066-2090 on a box: [apply_functor] of each class (1501-1506 Cap,
      1630-1635 Cup, 1691-1692 Daggered, 1790-1795 Spider, 1884-1888 Swap, 527-531 others) *)
  Fixpoint F_box (b : box) : res diagram :=
    f_check (b_dom b) (b_cod b)
      match b with
      | Cap l r rv => do fl <- F_ty [l]; do fr <- F_ty [r]; caps fl fr rv
      | Cup l r rv => do fl <- F_ty [l]; do fr <- F_ty [r]; cups fl fr rv
      | Swap l r => do fl <- F_ty [l]; do fr <- F_ty [r]; swap fl fr
      | Spider t n m => do ft <- F_ty [t]; spider ft n m
      | Dagg b' => rmap d_dagger (F_box b')
      | Box _ _ _ _ | Word _ _ _ | Frame _ _ _ _ _ | DagFrame _ _ _ _ _ => F_basic b
      end.

  (** one turn of the loop in grammar.py 1319-1327 *)
  Definition F_step (acc : diagram) (x : layer) : res diagram :=
    let '(l, b, r) := x in
    do fl <- F_ty l; do fb <- F_box b; do fr <- F_ty r;
    d_then acc (tensor (tensor (id fl) fb) (id fr)).

  (** grammar.py 2076-2079 and 1319-1327 *)
  Definition F_diag (d : diagram) : res diagram :=
    f_check (dom d) (cod d)
      match layers d with
      | [] => rmap id (F_ty (dom d))
      | ls => do t <- F_ty (dom d); foldM F_step ls (id t)
      end.

  (** ** The functor with its caches *)

  (** the keys and values of [ar_cache]: a box or a diagram (its image is a diagram) *)
  Inductive arrow := AB (b : box) | AD (d : diagram).
  Definition arrow_eqb (x y : arrow) : bool :=
    match x, y with
    | AB a, AB b => box_eqb a b
    | AD a, AD b => diagram_eqb a b
    | _, _ => false
    end.
  (** grammar.py 2018-2019 *)
  Record caches := Caches { ob_cache : list (ty * ty); ar_cache : list (arrow * diagram) }.
  Definition empty_caches : caches := Caches [] [].

  (** computations that read and update the caches and may raise *)
  Definition M (A : Type) : Type := caches -> res A * caches.
  Definition lift {A} (r : res A) : M A := fun s => (r, s).
  Definition mbind {A B} (m : M A) (f : A -> M B) : M B :=
    fun s => let '(r, s') := m s in match r with Ok a => f a s' | Err e => (Err e, s') end.
  Definition mmap {A B} (f : A -> B) (m : M A) : M B := mbind m (fun a => lift (Ok (f a))).
  Fixpoint mmapM {A B} (f : A -> M B) (l : list A) : M (list B) :=
    match l with
    | [] => lift (Ok [])
    | x :: xs => mbind (f x) (fun y => mbind (mmapM f xs) (fun ys => lift (Ok (y :: ys))))
    end.
  Fixpoint mfoldM {S A} (f : S -> A -> M S) (l : list A) (s : S) : M S :=
    match l with [] => lift (Ok s) | x :: xs => mbind (f s x) (fun s' => mfoldM f xs s') end.

  Fixpoint lookup {K V} (eqb : K -> K -> bool) (k : K) (l : list (K * V)) : option V :=
    match l with
    | [] => None
    | (k', v) :: l' => if eqb k k' then Some v else lookup eqb k l'
    end.

  (** grammar.py 2050-2064 [ob_with_cache] around [body] *)
  Definition cached_ob (t : ty) (body : M ty) : M ty :=
    fun s =>
      match lookup ty_eqb t (ob_cache s) with
      | Some v => (Ok v, s)
      | None =>
          let '(r, s1) := body s in
          match r with
          | Err e => (Err e, s1)
          | Ok v => (Ok v, Caches ((t, v) :: ob_cache s1) (ar_cache s1))
          end
      end.
  Definition ob_atom0 (n : string) : M ty := cached_ob [(n, 0%Z)] (lift (custom_ob n)).
  Definition ob_atom (a : atom) : M ty :=
    if (snd a =? 0)%Z then ob_atom0 (fst a)
    else cached_ob [a] (mmap (rot (snd a)) (ob_atom0 (fst a))).
  (** grammar.py 2050-2064 with 347-356 *)
  Definition ob_with_cache (t : ty) : M ty :=
    match t with
    | [] => cached_ob [] (lift (Ok []))
    | [a] => ob_atom a
    | _ => cached_ob t (mmap (@List.concat _) (mmapM ob_atom t))
    end.

  (** grammar.py 2066-2090 [ar_with_cache] around [body]: the image is stored before it is checked *)
  Definition cached_ar (k : arrow) (d c : ty) (body : M diagram) : M diagram :=
    fun s =>
      match lookup arrow_eqb k (ar_cache s) with
      | Some v => (Ok v, s)
      | None =>
          let '(r, s1) := body s in
          match r with
          | Err e => (Err e, s1)
          | Ok ret =>
              mbind (ob_with_cache c) (fun fc =>
              mbind (ob_with_cache d) (fun fd =>
              lift (if negb (ty_eqb (cod ret) fc) || negb (ty_eqb (dom ret) fd)
                    then Err TypeError else Ok ret)))
                (Caches (ob_cache s1) ((k, ret) :: ar_cache s1))
          end
      end.

  Definition ar_basic (b : box) : M diagram :=
    if (b_z b =? 0)%Z then lift (custom_ar b)
    else mmap (d_rotate (b_z b))
              (cached_ar (AB (b_unwind b)) (b_dom (b_unwind b)) (b_cod (b_unwind b))
                         (lift (custom_ar (b_unwind b)))).
  Fixpoint ar_box (b : box) : M diagram :=
    cached_ar (AB b) (b_dom b) (b_cod b)
      match b with
      | Cap l r rv => mbind (ob_with_cache [l]) (fun fl => mbind (ob_with_cache [r]) (fun fr => lift (caps fl fr rv)))
      | Cup l r rv => mbind (ob_with_cache [l]) (fun fl => mbind (ob_with_cache [r]) (fun fr => lift (cups fl fr rv)))
      | Swap l r => mbind (ob_with_cache [l]) (fun fl => mbind (ob_with_cache [r]) (fun fr => lift (swap fl fr)))
      | Spider t n m => mbind (ob_with_cache [t]) (fun ft => lift (spider ft n m))
      | Dagg b' => mmap d_dagger (ar_box b')
      | Box _ _ _ _ | Word _ _ _ | Frame _ _ _ _ _ | DagFrame _ _ _ _ _ => ar_basic b
      end.
  (** [functor(self.id(t))] *)
  Definition ar_id (t : ty) : M diagram := cached_ar (AD (id t)) t t (mmap id (ob_with_cache t)).
  Definition ar_step (acc : diagram) (x : layer) : M diagram :=
    let '(l, b, r) := x in
    mbind (ar_id l) (fun fl => mbind (ar_box b) (fun fb => mbind (ar_id r) (fun fr =>
    lift (d_then acc (tensor (tensor fl fb) fr))))).
  Definition ar_diag (d : diagram) : M diagram :=
    cached_ar (AD d) (dom d) (cod d)
      match layers d with
      | [] => mmap id (ob_with_cache (dom d))
      | ls => mbind (ar_id (dom d)) (fun i => mfoldM ar_step ls i)
      end.

  (** grammar.py 2034-2048 [Functor.__call__] *)
  Inductive entity := ETy (t : ty) | EArrow (a : arrow).
  Inductive image := ITy (t : ty) | IDiag (d : diagram).
  Definition call (e : entity) : M image :=
    match e with
    | ETy t => mmap ITy (ob_with_cache t)
    | EArrow (AB b) => mmap IDiag (ar_box b)
    | EArrow (AD d) => mmap IDiag (ar_diag d)
    end.

  (** a history of calls on one functor object: the results in order and the final caches *)
  Fixpoint calls (h : list entity) (s : caches) : list (res image) * caches :=
    match h with
    | [] => ([], s)
    | e :: h' => let '(r, s1) := call e s in let '(rs, s2) := calls h' s1 in (r :: rs, s2)
    end.
End Functor.
