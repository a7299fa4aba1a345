(** Model of [lambeq/backend/grammar.py: class Ty] (lines 125-434). *)
From Verif Require Import PyBase.
Set Implicit Arguments.

(** ** The Python class, field by field *)

(** grammar.py 125-145: dataclass fields name (None allowed), objects, z. *)
Inductive rty := RTy (name : option string) (objects : list rty) (z : Z).

Definition r_name (t : rty) := let 'RTy n _ _ := t in n.
Definition r_objects (t : rty) := let 'RTy _ o _ := t in o.
Definition r_z (t : rty) := let 'RTy _ _ z := t in z.

(** grammar.py 155-157 *)
Definition is_empty (t : rty) : bool :=
  match t with RTy None [] _ => true | _ => false end.
(** grammar.py 159-161 *)
Definition is_atomic (t : rty) : bool :=
  match t with RTy (Some _) [] _ => true | _ => false end.
(** grammar.py 163-165 *)
Definition is_complex (t : rty) : bool :=
  match t with RTy _ (_ :: _) _ => true | _ => false end.

(** grammar.py 149-153: the assertions of [__post_init__]. *)
Definition post_init (t : rty) : bool :=
  negb (List.length (r_objects t) =? 1)
  && negb ((1 <? List.length (r_objects t))
           && match r_name t with None => false | Some _ => true end)
  && (is_atomic t || (r_z t =? 0)%Z).

(** [Ty(name, objects, z)]. *)
Definition mk_ty (n : option string) (o : list rty) (z : Z) : res rty :=
  if post_init (RTy n o z) then Ok (RTy n o z) else Err AssertionError.

(** [Ty()] and [Ty(name)] *)
Definition r_empty : rty := RTy None [] 0.
Definition r_atom (n : string) (z : Z) : rty := RTy (Some n) [] z.

(** grammar.py 191-192 *)
Definition r_len (t : rty) : nat :=
  if is_atomic t then 1 else List.length (r_objects t).

(** grammar.py 194-198 *)
Definition r_iter (t : rty) : list rty :=
  if is_atomic t then [t] else r_objects t.

(** grammar.py 262-271 [_fromiter] (the [cls(objects=...)] call has at least two
    objects, no name and z = 0, so [__post_init__] cannot fail). *)
Definition fromiter (objs : list rty) : rty :=
  match objs with
  | [] => r_empty
  | [o] => o
  | _ => RTy None objs 0
  end.

(** grammar.py 200-207 [__getitem__] with an int index. *)
Definition r_getitem (t : rty) (i : Z) : res rty := py_index (r_iter t) i.
(** grammar.py 200-207 [__getitem__] with a step-1 slice. *)
Definition r_slice (t : rty) (a b : option Z) : rty :=
  fromiter (py_slice (r_iter t) a b).

(** grammar.py 283-303 [tensor(self, other, *rest)] where [other] is a [Ty]:
    [[*other, *rest]] iterates [other]; then all objects of all of them. *)
Definition r_tensor (self other : rty) : rty :=
  fromiter (flat_map r_iter (self :: r_iter other)).
(** the variadic form, [self.tensor(other, *rest)] *)
Definition r_tensor_list (self other : rty) (rest : list rty) : rty :=
  fromiter (flat_map r_iter (self :: r_iter other ++ rest)).
(** grammar.py 283-303 where [other] is a plain iterable of types *)
Definition r_tensor_iter (self : rty) (other : list rty) : rty :=
  fromiter (flat_map r_iter (self :: other)).

(** grammar.py 308-318 [rotate]; Python's [z % 2 == 1] is [Z.odd z]. *)
Fixpoint r_rotate (z : Z) (t : rty) {struct t} : rty :=
  match t with
  | RTy nm objs tz =>
      if is_empty (RTy nm objs tz) || (z =? 0)%Z then RTy nm objs tz
      else if is_atomic (RTy nm objs tz) then RTy nm objs (tz + z)
      else
        let objs' := map (r_rotate z) objs in
        RTy None (if Z.odd z then rev objs' else objs') 0
  end.

(** grammar.py 320-329 *)
Definition r_unwind (t : rty) : rty := r_rotate (- r_z t) t.
Definition r_l (t : rty) : rty := r_rotate (-1) t.
Definition r_r (t : rty) : rty := r_rotate 1 t.

(** grammar.py 331-339: [<<] and [>>] on types *)
Definition r_over (s t : rty) : rty := r_tensor s (r_l t).
Definition r_under (s t : rty) : rty := r_tensor (r_r s) t.

(** grammar.py 341-346: [t ** n] *)
Definition r_repeat (t : rty) (n : nat) : rty := r_tensor_iter r_empty (repeat t n).

(** grammar.py 209-238 [replace(other, index)] *)
Definition r_replace (self other : rty) (index : Z) : res rty :=
  if negb ((index <=? Z.of_nat (r_len self)) && (index >=? 0))%Z then Err IndexError
  else if is_empty self then Ok other
  else
    let objects := r_objects self in
    if List.length objects =? 1 then Ok other
    else if (index =? 0)%Z then
      Ok (fromiter (r_iter other ++ py_slice objects (Some 1%Z) None))
    else if (index =? Z.of_nat (r_len self))%Z then
      Ok (fromiter (py_slice objects None (Some (-1)%Z) ++ r_iter other))
    else
      Ok (fromiter (py_slice objects None (Some index) ++ r_iter other
                    ++ py_slice objects (Some (index + 1)%Z) None)).

(** grammar.py 240-260 [insert(other, index)] *)
Definition r_insert (self other : rty) (index : Z) : res rty :=
  if negb (index <=? Z.of_nat (r_len self))%Z then Err IndexError
  else if is_empty self then Ok other
  else if (index =? 0)%Z then Ok (r_tensor other self)
  else if (index =? Z.of_nat (r_len self))%Z then Ok (r_tensor self other)
  else
    let objects := r_objects self in
    Ok (fromiter (py_slice objects None (Some index) ++ r_iter other
                  ++ py_slice objects (Some index) None)).

(** ** The abstract view used by the diagram-level models: a type is the list of
    its atomic factors, an atom is a name with a winding number. *)
Definition atom := (string * Z)%type.
Definition ty := list atom.

Definition atom_eqb (a b : atom) : bool :=
  String.eqb (fst a) (fst b) && (snd a =? snd b)%Z.
Fixpoint ty_eqb (s t : ty) : bool :=
  match s, t with
  | [], [] => true
  | a :: s', b :: t' => atom_eqb a b && ty_eqb s' t'
  | _, _ => false
  end.

(** A flat type, as built by every API operation: empty, atomic, or a product of
    at least two atomic types. *)
Definition flat (t : rty) : bool :=
  post_init t && forallb is_atomic (r_objects t).

Definition of_atom (a : atom) : rty := r_atom (fst a) (snd a).
Definition of_ty (t : ty) : rty := fromiter (map of_atom t).
(** The atomic factors of a type, read off by Python's iteration protocol. *)
Definition factor (t : rty) : atom :=
  match r_name t with Some n => (n, r_z t) | None => (EmptyString, r_z t) end.
Definition factors (t : rty) : ty := map factor (r_iter t).

(** grammar.py 308-318 on the abstract view. *)
Definition rot_atom (z : Z) (a : atom) : atom := (fst a, (snd a + z)%Z).
Definition rot (z : Z) (t : ty) : ty :=
  map (rot_atom z) (if Z.odd z then rev t else t).
Definition ty_l := rot (-1).
Definition ty_r := rot 1.
Definition atom_l := rot_atom (-1).
Definition atom_r := rot_atom 1.

(** grammar.py 341-346 on the abstract view *)
Fixpoint ty_pow (t : ty) (n : nat) : ty :=
  match n with O => [] | S k => t ++ ty_pow t k end.
