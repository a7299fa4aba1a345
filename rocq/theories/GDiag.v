(** Diagrams over arbitrary atoms and boxes: the part of [lambeq/backend/grammar.py: Diagram] that the
    quantum and tensor categories inherit. [A] are atomic types, a type is a list of atoms, [B] boxes with
    domain [bd] and codomain [bc]. DiagModel.v is the same code on grammar boxes; the closed forms of
    [then] and [tensor] below are proved there ([DiagFacts.d_then_eq], [DiagFacts.tensor_eq]). *)
From Verif Require Import PyBase DiagModel.
Set Implicit Arguments. Unset Strict Implicit.

Section G.
  Variables (A B : Type) (aeqb : A -> A -> bool) (bd bc : B -> list A).
  Definition gty := list A.
  Definition glayer := (list A * B * list A)%type.
  Record gdiag := GD { gdom : list A; gcod : list A; glayers : list glayer }.
  Definition gl_left (x : glayer) : list A := fst (fst x).
  Definition gl_box (x : glayer) : B := snd (fst x).
  Definition gl_right (x : glayer) : list A := snd x.
  Definition gl_dom (x : glayer) : list A := gl_left x ++ bd (gl_box x) ++ gl_right x.
  Definition gl_cod (x : glayer) : list A := gl_left x ++ bc (gl_box x) ++ gl_right x.
  Definition gboxes (d : gdiag) : list B := map gl_box (glayers d).
  Fixpoint gteqb (s t : list A) : bool :=
    match s, t with [], [] => true | a :: s', b :: t' => aeqb a b && gteqb s' t' | _, _ => false end.

  (** grammar.py 816-820 *)
  Definition gid (t : list A) : gdiag := GD t t [].
  (** grammar.py 487-495 *)
  Definition gbox (b : B) : gdiag := GD (bd b) (bc b) [([], b, [])].
  (** grammar.py 612-620 *)
  Definition gext (l r : list A) (x : glayer) : glayer := (l ++ gl_left x, gl_box x, gl_right x ++ r).
  (** grammar.py 964-980, for two diagrams *)
  Definition gtensor (a b : gdiag) : gdiag :=
    GD (gdom a ++ gdom b) (gcod a ++ gcod b) (map (gext [] (gdom b)) (glayers a) ++ map (gext (gcod a) []) (glayers b)).
  (** [a.tensor( *ds )] *)
  Definition gtensor_list (a : gdiag) (ds : list gdiag) : gdiag := fold_left gtensor ds a.
  (** grammar.py 1023-1039, for two diagrams *)
  Definition gthen (a b : gdiag) : res gdiag :=
    if gteqb (gdom b) (gcod a) then Ok (GD (gdom a) (gcod b) (glayers a ++ glayers b)) else Err ValueError.
  (** [a.then( *ds )] *)
  Definition gthen_list (a : gdiag) (ds : list gdiag) : res gdiag := foldM gthen ds a.
  (** grammar.py 1041-1045 *)
  Definition gthen_at (d x : gdiag) (i : Z) : res gdiag :=
    gthen d (gtensor (gtensor (gid (py_slice (gcod d) None (Some i))) x)
                     (gid (py_slice (gcod d) (Some (i + Z.of_nat (List.length (gdom x))))%Z None))).
  (** grammar.py 1064-1071, for a dagger of boxes *)
  Definition gdagger (bdag : B -> B) (d : gdiag) : gdiag :=
    match glayers d with
    | [] => d
    | _ => GD (gcod d) (gdom d) (map (fun x => (gl_left x, bdag (gl_box x), gl_right x)) (rev (glayers d)))
    end.
  (** grammar.py 1138-1163 [permutation], for a swap box *)
  Variable sw : A -> A -> B.
  Definition gswap_step (d : gdiag) (i : nat) : res gdiag :=
    match firstn 2 (skipn i (gcod d)) with
    | [a; b] => gthen d (gtensor (gtensor (gid (firstn i (gcod d))) (gbox (sw a b))) (gid (skipn (i + 2) (gcod d))))
    | _ => Err TypeError
    end.
  Definition gperm_step (p : list nat) (st : gdiag * list nat) (out : nat) : res (gdiag * list nat) :=
    let '(d, w) := st in
    match nth_error p out with
    | None => Err IndexError
    | Some po =>
      match nth_error w po with
      | None => Err IndexError
      | Some inx =>
        if inx <? out then Err AssertionError
        else do d' <- foldM gswap_step (rev (seq out (inx - out))) d; Ok (d', bump po w)
      end
    end.
  Definition gpermutation (t : list A) (p : list nat) : res gdiag :=
    if negb (perm_valid p (List.length t)) then Err ValueError
    else rmap fst (foldM (gperm_step p) (seq 0 (List.length t - 1)) (gid t, seq 0 (List.length t))).
  (** grammar.py 1853-1863 [Swap.__new__] *)
  Definition gswap (left right : list A) : res gdiag :=
    match left, right with
    | [l], [r] => Ok (gbox (sw l r))
    | _, _ =>
        foldM (fun d '(start, ob) =>
                 foldM (fun d '(i, a) => gthen_at d (gbox (sw a ob)) (Z.of_nat (start + i))) (rev (enum 0 left)) d)
              (enum 0 right) (gid (left ++ right))
    end.
End G.
Arguments GD {A B}. Arguments gid {A B}. Arguments gl_left {A B}. Arguments gl_box {A B}. Arguments gl_right {A B}. Arguments gboxes {A B}. Arguments gtensor {A B}.
