(** Model of boxes, layers and diagrams of [lambeq/backend/grammar.py]
    (lines 437-1403 and the special boxes 1405-2293).

    Types are represented by the list of their atomic factors ([TyModel.ty]);
    [TyFacts] proves that the raw [Ty] class refines this view on flat types.

    Box subclasses other than the ones below (quantum gates etc.) are [Box]es here. *)
From Verif Require Import PyBase TyModel.
Set Implicit Arguments.

(** A component of a [Frame]: a box or a diagram (grammar.py 2140). *)
Inductive comp (B : Type) :=
| CBox (b : B)
| CDiag (cdom ccod : ty) (clayers : list (ty * B * ty)).
Arguments CBox {B} b.
Arguments CDiag {B} cdom ccod clayers.

(** grammar.py 437-482 (Box), 1914-1936 (Word), 1405-1443 (Cap), 1532-1570 (Cup),
    1822-1851 (Swap), 1717-1746 (Spider), 1662-1682 (Daggered), 2108-2141 (Frame),
    2238-2261 (DaggeredFrame; its components are derived from the wrapped frame).
    Cap/Cup/Swap/Spider boxes carry atomic types: their [__post_init__] rejects others. *)
Inductive box :=
| Box (name : string) (bdom bcod : ty) (z : Z)
| Word (name : string) (wcod : ty) (z : Z)
| Cap (l r : atom) (rv : bool)
| Cup (l r : atom) (rv : bool)
| Swap (l r : atom)
| Spider (t : atom) (n m : nat)
| Dagg (b : box)
| Frame (name : string) (fdom fcod : ty) (comps : list (comp box)) (z : Z)
| DagFrame (name : string) (fdom fcod : ty) (comps : list (comp box)) (z : Z).

(** grammar.py 575-592: (left, box, right). *)
Definition layer := (ty * box * ty)%type.

(** grammar.py 701-718 *)
Record diagram := Diag { dom : ty; cod : ty; layers : list layer }.

(** the [dom] ([top = true]) and [cod] ([top = false]) fields of each class *)
Fixpoint b_end (top : bool) (b : box) : ty :=
  match b with
  | Box _ d c _ => if top then d else c
  | Word _ c _ => if top then [] else c
  | Cap l r _ => if top then [] else [l; r]
  | Cup l r _ => if top then [l; r] else []
  | Swap l r => if top then [l; r] else [r; l]
  | Spider t n m => if top then repeat t n else repeat t m
  | Dagg b => b_end (negb top) b
  | Frame _ d c _ _ => if top then d else c
  | DagFrame _ d c _ _ => if top then c else d
  end.
Definition b_dom : box -> ty := b_end true.
Definition b_cod : box -> ty := b_end false.

(** the [z] field of each class *)
Fixpoint b_z (b : box) : Z :=
  match b with
  | Box _ _ _ z | Word _ _ z | Frame _ _ _ _ z | DagFrame _ _ _ _ z => z
  | Cap _ _ rv | Cup _ _ rv => if rv then 1 else 0
  | Swap _ _ | Spider _ _ _ => 0
  | Dagg b => b_z b
  end%Z.

(** the [name] field; the dagger sign is rendered as "+" *)
Fixpoint b_name (b : box) : string :=
  match b with
  | Box n _ _ _ | Word n _ _ | Frame n _ _ _ _ => n
  | DagFrame n _ _ _ _ => n ++ "+"
  | Cap _ _ _ => "CAP" | Cup _ _ _ => "CUP"
  | Swap _ _ => "SWAP" | Spider _ _ _ => "SPIDER"
  | Dagg b => b_name b ++ "+"
  end%string.

(** grammar.py 601-607 *)
Definition l_dom (x : layer) : ty := let '(l, b, r) := x in l ++ b_dom b ++ r.
Definition l_cod (x : layer) : ty := let '(l, b, r) := x in l ++ b_cod b ++ r.
Definition l_box (x : layer) : box := let '(_, b, _) := x in b.
Definition l_left (x : layer) : ty := let '(l, _, _) := x in l.
Definition l_right (x : layer) : ty := let '(_, _, r) := x in r.

(** grammar.py 826-828, 988-991 *)
Definition boxes (d : diagram) : list box := map l_box (layers d).
Definition offsets (d : diagram) : list nat := map (fun x => List.length (l_left x)) (layers d).

(** ** Rotation *)

(** grammar.py 622-632 [Layer.rotate], parametric in the box rotation *)
Definition rot_layer_with (f : box -> box) (z : Z) (x : layer) : layer :=
  let '(l, b, r) := x in
  if Z.odd z then (rot z r, f b, rot z l) else (rot z l, f b, rot z r).

(** Rotation of a frame component: [Box.rotate] or [Diagram.rotate] *)
Definition rot_comp_with (f : box -> box) (z : Z) (c : comp box) : comp box :=
  match c with
  | CBox b => CBox (f b)
  | CDiag d c ls => CDiag (rot z d) (rot z c) (map (rot_layer_with f z) ls)
  end.

Definition b2z (b : bool) : Z := if b then 1%Z else 0%Z.

(** grammar.py 506-511 (Box), 1944-1946 (Word), 1484-1493 (Cap), 1611-1620 (Cup),
    1873-1879 (Swap), 1783-1785 (Spider), 1684-1686 (Daggered), 2151-2158 (Frame),
    2263-2265 (DaggeredFrame).  The constructor checks of Cap/Cup re-run by
    [type(self)(...)] are discharged by [DiagFacts.b_rotate_ok]. *)
Fixpoint b_rotate (z : Z) (b : box) {struct b} : box :=
  match b with
  | Box n d c k => Box n (rot z d) (rot z c) (k + z)
  | Word n c k => Word n (rot z c) (k + z)
  | Cap l r rv =>
      if Z.odd z then Cap (rot_atom z r) (rot_atom z l) (Z.odd (b2z rv + z))
      else Cap (rot_atom z l) (rot_atom z r) (Z.odd (b2z rv + z))
  | Cup l r rv =>
      if Z.odd z then Cup (rot_atom z r) (rot_atom z l) (Z.odd (b2z rv + z))
      else Cup (rot_atom z l) (rot_atom z r) (Z.odd (b2z rv + z))
  | Swap l r =>
      if Z.odd z then Swap (rot_atom z r) (rot_atom z l)
      else Swap (rot_atom z l) (rot_atom z r)
  | Spider t n m => Spider (rot_atom z t) n m
  | Dagg b => Dagg (b_rotate z b)
  | Frame n d c cs k =>
      Frame n (rot z d) (rot z c) (rev (map (rot_comp_with (b_rotate z) z) cs)) (k + z)
  | DagFrame n d c cs k =>
      DagFrame n (rot z d) (rot z c) (rev (map (rot_comp_with (b_rotate z) z) cs)) (k + z)
  end.

Definition l_rotate (z : Z) : layer -> layer := rot_layer_with (b_rotate z) z.

(** grammar.py 1050-1054 *)
Definition d_rotate (z : Z) (d : diagram) : diagram :=
  Diag (rot z (dom d)) (rot z (cod d)) (map (l_rotate z) (layers d)).

(** grammar.py 521-522 [unwind] *)
Definition b_unwind (b : box) : box := b_rotate (- b_z b) b.

(** ** Dagger: grammar.py 524-525, 1495-1499, 1622-1628, 1688-1689, 1787-1788,
    1881-1882, 1948-1949, 2160-2161, 2267-2268. *)
Definition b_dagger (b : box) : box :=
  match b with
  | Box _ _ _ _ | Word _ _ _ => Dagg b
  | Cap l r rv => Cup l r (negb rv)
  | Cup l r rv => Cap l r (negb rv)
  | Swap l r => Swap r l
  | Spider t n m => Spider t m n
  | Dagg b => b
  | Frame n d c cs z => DagFrame n d c cs z
  | DagFrame n d c cs z => Frame n d c cs z
  end.

(** grammar.py 634-638 *)
Definition l_dagger (x : layer) : layer := let '(l, b, r) := x in (l, b_dagger b, r).

(** grammar.py 1064-1071 *)
Definition d_dagger (d : diagram) : diagram :=
  match layers d with
  | [] => d
  | _ => Diag (cod d) (dom d) (map l_dagger (rev (layers d)))
  end.

(** ** Composition *)

(** grammar.py 816-820 *)
Definition id (t : ty) : diagram := Diag t t [].
(** grammar.py 487-495 [Box.to_diagram] *)
Definition to_diag (b : box) : diagram := Diag (b_dom b) (b_cod b) [([], b, [])].

(** grammar.py 612-620 *)
Definition l_extend (left right : ty) (x : layer) : layer :=
  let '(l, b, r) := x in (left ++ l, b, r ++ right).

(** grammar.py 964-980, loop over the lifted diagrams *)
Fixpoint tensor_loop (ds : list diagram) (left right : ty) (acc : list layer)
  : ty * list layer :=
  match ds with
  | [] => (left, acc)
  | d :: ds' =>
      let right' := skipn (List.length (dom d)) right in
      tensor_loop ds' (left ++ cod d) right' (acc ++ map (l_extend left right') (layers d))
  end.
(** grammar.py 964-980 [self.tensor( *diagrams )] *)
Definition tensor_list (self : diagram) (ds : list diagram) : diagram :=
  let d0 := List.concat (map dom (self :: ds)) in
  let '(c, ls) := tensor_loop (self :: ds) [] d0 [] in
  Diag d0 c ls.
Definition tensor (a b : diagram) : diagram := tensor_list a [b].

(** grammar.py 1023-1039, loop *)
Fixpoint then_loop (ds : list diagram) (c : ty) (acc : list layer) : res (ty * list layer) :=
  match ds with
  | [] => Ok (c, acc)
  | d :: ds' =>
      if negb (ty_eqb (dom d) c) then Err ValueError
      else then_loop ds' (cod d) (acc ++ layers d)
  end.
(** grammar.py 1023-1039 [self.then( *diagrams )] *)
Definition then_list (self : diagram) (ds : list diagram) : res diagram :=
  do (c, ls) <- then_loop ds (cod self) (layers self);
  Ok (Diag (dom self) c ls).
Definition d_then (a b : diagram) : res diagram := then_list a [b].

(** grammar.py 1041-1045 *)
Definition then_at (d x : diagram) (i : Z) : res diagram :=
  d_then d (tensor (tensor (id (py_slice (cod d) None (Some i))) x)
                   (id (py_slice (cod d) (Some (i + Z.of_nat (List.length (dom x))))%Z None))).

(** ** Special boxes on arbitrary types *)

(** grammar.py 1445-1452 / 1572-1579 [_check_adjoint] *)
Definition cap_adjoint (left right : ty) (rv : bool) : bool :=
  if rv then ty_eqb left (rot (-1) right) else ty_eqb left (rot 1 right).
Definition cup_adjoint (left right : ty) (rv : bool) : bool :=
  if rv then ty_eqb left (rot 1 right) else ty_eqb left (rot (-1) right).

(** grammar.py 1435-1443 / 1562-1570: construction of an atomic Cap / Cup *)
Definition mk_cap (l r : atom) (rv : bool) : res box :=
  if cap_adjoint [l] [r] rv then Ok (Cap l r rv) else Err ValueError.
Definition mk_cup (l r : atom) (rv : bool) : res box :=
  if cup_adjoint [l] [r] rv then Ok (Cup l r rv) else Err ValueError.

(** [enumerate(l)] from index k *)
Fixpoint enum {A} (k : nat) (l : list A) : list (nat * A) :=
  match l with [] => [] | x :: xs => (k, x) :: enum (S k) xs end.

(** grammar.py 1454-1466 [Cap.__new__] (the flag is not passed to the inner [cls(l_ob, r_ob)]) *)
Definition caps (left right : ty) (rv : bool) : res diagram :=
  match left, right with
  | [l], [r] => rmap to_diag (mk_cap l r rv)
  | _, _ =>
      if negb (cap_adjoint left right rv) then Err ValueError
      else foldM (fun d '(i, (l, r)) =>
                    do b <- mk_cap l r false;
                    then_at d (to_diag b) (Z.of_nat i))
                 (enum 0 (combine left (rev right))) (id [])
  end.

(** grammar.py 1581-1593 [Cup.__new__] *)
Definition cups (left right : ty) (rv : bool) : res diagram :=
  match left, right with
  | [l], [r] => rmap to_diag (mk_cup l r rv)
  | _, _ =>
      if negb (cup_adjoint left right rv) then Err ValueError
      else foldM (fun d '(i, (l, r)) =>
                    do b <- mk_cup l r false;
                    then_at d (to_diag b) (Z.of_nat (List.length left) - 1 - Z.of_nat i))
                 (enum 0 (combine (rev left) right)) (id (left ++ right))
  end.

(** grammar.py 1476-1482 / 1603-1609 (the flag is not passed to [cls]) *)
Definition cap_to_right (left : ty) (rv : bool) := caps left (if rv then rot 1 left else rot (-1) left) false.
Definition cap_to_left (right : ty) (rv : bool) := caps (if rv then rot (-1) right else rot 1 right) right false.
Definition cup_to_right (left : ty) (rv : bool) := cups left (if rv then rot (-1) left else rot 1 left) false.
Definition cup_to_left (right : ty) (rv : bool) := cups (if rv then rot 1 right else rot (-1) right) right false.

(** grammar.py 1853-1863 [Swap.__new__] *)
Definition swap (left right : ty) : res diagram :=
  match left, right with
  | [l], [r] => Ok (to_diag (Swap l r))
  | _, _ =>
      foldM (fun d '(start, ob) =>
               foldM (fun d '(i, a) => then_at d (to_diag (Swap a ob)) (Z.of_nat (start + i)))
                     (rev (enum 0 left)) d)
            (enum 0 right) (id (left ++ right))
  end.

(** ** Permutations: grammar.py 1138-1163 *)

(** [len(p) == n and set(p) == set(range(n))]; negative entries, which the set
    comparison rejects, are not representable here. *)
Definition perm_valid (p : list nat) (n : nat) : bool :=
  (List.length p =? n)
  && forallb (fun x => existsb (Nat.eqb x) (seq 0 n)) p
  && forallb (fun x => existsb (Nat.eqb x) p) (seq 0 n).

(** the inner loop [for i in reversed(range(out_index, in_index))] *)
Definition swap_step (d : diagram) (i : nat) : res diagram :=
  match firstn 2 (skipn i (cod d)) with
  | [a; b] => d_then d (tensor (tensor (id (firstn i (cod d))) (to_diag (Swap a b)))
                               (id (skipn (i + 2) (cod d))))
  | _ => Err TypeError
  end.

(** increments the first k entries: [for i in range(k): wire_index[i] += 1] *)
Definition bump (k : nat) (w : list nat) : list nat :=
  map S (firstn k w) ++ skipn k w.

Definition perm_step (p : list nat) (st : diagram * list nat) (out : nat)
  : res (diagram * list nat) :=
  let '(d, w) := st in
  match nth_error p out with
  | None => Err IndexError
  | Some po =>
    match nth_error w po with
    | None => Err IndexError
    | Some inx =>
      if inx <? out then Err AssertionError
      else do d' <- foldM swap_step (rev (seq out (inx - out))) d;
           Ok (d', bump po w)
    end
  end.

Definition permutation (t : ty) (p : list nat) : res diagram :=
  if negb (perm_valid p (List.length t)) then Err ValueError
  else rmap fst (foldM (perm_step p) (seq 0 (List.length t - 1)) (id t, seq 0 (List.length t))).

(** grammar.py 1165-1166 *)
Definition permuted (d : diagram) (p : list nat) : res diagram :=
  do q <- permutation (cod d) p; d_then d q.

(** Python [range(i, stop, step)] for step >= 1 (empty if step = 0, which raises in
    Python but cannot occur below because then the outer range is empty). *)
Fixpoint range_step_fuel (fuel i stop step : nat) : list nat :=
  match fuel with
  | O => []
  | S f => if i <? stop then i :: range_step_fuel f (i + step) stop step else []
  end.
Definition range_step (i stop step : nat) : list nat := range_step_fuel stop i stop step.

(** grammar.py 1748-1772 [Spider.__new__] *)
Definition spider (t : ty) (n m : nat) : res diagram :=
  match t with
  | [a] => Ok (to_diag (Spider a n m))
  | _ =>
      let size := List.length t in
      do top <- permutation (ty_pow t n)
                  (flat_map (fun i => range_step i (size * n) size) (seq 0 size));
      let mid := tensor_list (id []) (map (fun a => to_diag (Spider a n m)) t) in
      do bot <- permuted mid
                  (flat_map (fun i => range_step i (size * m) m) (seq 0 m));
      d_then top bot
  end.

(** ** Slicing: grammar.py 999-1021 *)
(** step +1 *)
Definition d_slice (d : diagram) (a b : option Z) : res diagram :=
  let ls := py_slice (layers d) a b in
  let n := Z.of_nat (List.length (layers d)) in
  let a0 := match a with None => 0%Z | Some i => i end in
  match ls with
  | [] =>
      if (a0 >=? n)%Z then Ok (id (cod d))
      else if (a0 <=? - n)%Z then Ok (id (dom d))
      else do x <- py_index (layers d) a0; Ok (id (l_dom x))
  | x :: _ => Ok (Diag (l_dom x) (l_cod (last ls x)) ls)
  end.
(** step -1 with both bounds omitted: [d[::-1]] *)
Definition d_reverse (d : diagram) : diagram :=
  Diag (cod d) (dom d) (map l_dagger (rev (layers d))).
(** step -1 with a start: [d[a::-1]] for 0 <= a (layers a, a-1, ..., 0) *)
Definition d_reverse_from (d : diagram) (a : nat) : diagram :=
  Diag (cod d) (dom d) (map l_dagger (rev (firstn (S a) (layers d)))).
(** int index *)
Definition d_index (d : diagram) (k : Z) : res diagram :=
  let n := Z.of_nat (List.length (layers d)) in
  if ((k >=? n) || (k <? - n))%Z then Err IndexError
  else let k' := if (k <? 0)%Z then (n + k)%Z else k in
       d_slice d (Some k') (Some (k' + 1)%Z).

(** ** Transpose and curry: grammar.py 1073-1136 *)
Definition transpose (d : diagram) (left : bool) : res diagram :=
  if left then
    do cap <- caps (dom d) (rot (-1) (dom d)) false;
    do cup <- cups (rot (-1) (cod d)) (cod d) false;
    let top := tensor (id (rot (-1) (cod d))) cap in
    let mid := tensor (tensor (id (rot (-1) (cod d))) d) (id (rot (-1) (dom d))) in
    let bot := tensor cup (id (rot (-1) (dom d))) in
    do x <- d_then top mid; d_then x bot
  else
    do cap <- caps (rot 1 (dom d)) (dom d) false;
    do cup <- cups (cod d) (rot 1 (cod d)) false;
    let top := tensor cap (id (rot 1 (cod d))) in
    let mid := tensor (tensor (id (rot 1 (dom d))) d) (id (rot 1 (cod d))) in
    let bot := tensor (id (rot 1 (dom d))) cup in
    do x <- d_then top mid; d_then x bot.

Definition curry (d : diagram) (n : Z) (left : bool) : res diagram :=
  if left then
    let base := py_slice (dom d) None (Some (- n)%Z) in
    let expo := py_slice (dom d) (Some (- n)%Z) None in
    do cap <- caps expo (rot (-1) expo) false;
    d_then (tensor (id base) cap) (tensor d (id (rot (-1) expo)))
  else
    let base := py_slice (dom d) (Some n) None in
    let expo := py_slice (dom d) None (Some n) in
    do cap <- caps (rot 1 expo) expo false;
    d_then (tensor cap (id base)) (tensor (id (rot 1 expo)) d).

(** ** Combinators used by the CCG rules: grammar.py 768-792 *)
Definition d_fa (left right : ty) : res diagram :=
  do c <- cups (rot (-1) right) right false; Ok (tensor (id left) c).
Definition d_ba (left right : ty) : res diagram :=
  do c <- cups left (rot 1 left) false; Ok (tensor_list (id []) [c; id right]).
Definition d_fc (left middle right : ty) : res diagram :=
  do c <- cups (rot (-1) middle) middle false;
  Ok (tensor (tensor (id left) c) (id (rot (-1) right))).
Definition d_bc (left middle right : ty) : res diagram :=
  do c <- cups middle (rot 1 middle) false;
  Ok (tensor (tensor (id (rot 1 left)) c) (id right)).
Definition d_fx (left middle right : ty) : res diagram :=
  do s1 <- swap (rot (-1) middle) (rot 1 right);
  do s2 <- swap left (rot 1 right);
  do c <- cups (rot (-1) middle) middle false;
  d_then (tensor (tensor (id left) s1) (id middle)) (tensor s2 c).
Definition d_bx (left middle right : ty) : res diagram :=
  do s1 <- swap (rot (-1) left) (rot 1 middle);
  do s2 <- swap (rot (-1) left) right;
  do c <- cups middle (rot 1 middle) false;
  d_then (tensor (tensor (id middle) s1) (id right)) (tensor c s2).

(** ** create_pregroup_diagram: grammar.py 834-899 *)
(** a requested morphism: Cup, Swap or some other class *)
Inductive mtype := MCup | MSwap | MOther.
Definition morphism := (mtype * Z * Z)%type.

(** lines 886-890: earlier cups that start to the left shift the position by 2 *)
Definition actual_idx (prev : list morphism) (start : Z) : Z :=
  fold_left (fun a '(t, s, _) =>
      match t with MCup => if (s <? start)%Z then (a - 2)%Z else a | _ => a end) prev start.

(** line 883: [typ(types[start:start+1], types[end:end+1])] *)
Definition pregroup_box (types : ty) (m : morphism) : res diagram :=
  let '(t, s, e) := m in
  let tl := py_slice types (Some s) (Some (s + 1)%Z) in
  let tr := py_slice types (Some e) (Some (e + 1)%Z) in
  match t with
  | MCup => cups tl tr false
  | MSwap => swap tl tr
  | MOther => Err ValueError
  end.

Fixpoint pregroup_morphisms (types : ty) (prev rest : list morphism) : res (list (diagram * Z)) :=
  match rest with
  | [] => Ok []
  | m :: rest' =>
      do b <- pregroup_box types m;
      do bs <- pregroup_morphisms types (prev ++ [m]) rest';
      let '(_, s, _) := m in
      Ok ((b, actual_idx prev s) :: bs)
  end.

(** offsets of the word boxes, lines 872-878 *)
Fixpoint word_offsets (k : nat) (words : list (string * ty)) : list (diagram * Z) :=
  match words with
  | [] => []
  | (n, c) :: ws => (to_diag (Word n c 0), Z.of_nat k) :: word_offsets (k + List.length c) ws
  end.

Definition create_pregroup_diagram (words : list (string * ty)) (ms : list morphism) : res diagram :=
  let types := flat_map snd words in
  do mbs <- pregroup_morphisms types [] ms;
  foldM (fun d '(x, off) =>
           d_then d (tensor (tensor (id (py_slice (cod d) None (Some off))) x)
                            (id (py_slice (cod d) (Some (off + Z.of_nat (List.length (dom x))))%Z None))))
        (word_offsets 0 words ++ mbs) (id []).

(** grammar.py 901-927 *)
Fixpoint is_pregroup_loop (in_words : bool) (ls : list layer) : bool :=
  match ls with
  | [] => true
  | (l, b, r) :: ls' =>
      match b with
      | Word _ _ _ =>
          if in_words
          then match r with [] => is_pregroup_loop true ls' | _ => false end
          else false
      | Cup _ _ _ | Swap _ _ => is_pregroup_loop false ls'
      | _ => false
      end
  end.
Definition is_pregroup (d : diagram) : bool :=
  match dom d with [] => is_pregroup_loop true (layers d) | _ => false end.
