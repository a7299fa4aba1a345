(** Model of [tree2diagram] and [_fix_auxiliary_types] in [lambeq/text2diagram/pregroup_tree_converter.py], lines 640-928.
    Simplifications: the drawing options are left out; [str(ty) == 's.r @ n.r.r'] compares types instead of their texts (they agree unless an atom's name contains a dot or an at sign);
    the result of the unused comparison of a type with a string in [conditions[0]] is the non-empty text ["False"], hence true; trees are finite. *)
From Verif Require Import PyBase TyModel DiagModel MiscModel TreeModel.
Open Scope string_scope. Set Implicit Arguments. Unset Strict Implicit.

(** [l[i]] and [l[i] = x] with Python indices *)
Definition py_pos (n : nat) (i : Z) : res nat :=
  let j := if (i <? 0)%Z then (Z.of_nat n + i)%Z else i in if ((0 <=? j) && (j <? Z.of_nat n))%Z then Ok (Z.to_nat j) else Err IndexError.
Fixpoint set_nth {A} (k : nat) (x : A) (l : list A) : list A := match l, k with [], _ => [] | _ :: l', O => x :: l' | y :: l', S k' => y :: set_nth k' x l' end.
Definition py_set {A} (l : list A) (i : Z) (x : A) : res (list A) := do k <- py_pos (List.length l) i; Ok (set_nth k x l).

(** a word component: the index of the other word and a type *)
Notation wcomp := (Z * ty)%type.
Notation wcomps := (list (list wcomp)).
Fixpoint take_while {A} (f : A -> bool) (l : list A) : list A := match l with [] => [] | x :: l' => if f x then x :: take_while f l' else [] end.
(** 738-755: the children to the left in order, then those to the right in reverse order *)
Definition ordered_children (n : node) : list node :=
  let cs := sort_ind (n_children n) in
  (take_while (fun c => (n_ind c <? n_ind n)%Z) cs ++ take_while (fun c => (n_ind n <? n_ind c)%Z) (rev cs))%list.
(** 757-789 *)
Definition add_child (n : node) (st : wcomps * list (Z * Z)) (c : node) : res (wcomps * list (Z * Z)) :=
  let '(wc, cups) := st in
  do nc <- py_index wc (n_ind n);
  if (n_ind c <? n_ind n)%Z then
    let skipped := take_while (fun x : wcomp => (n_ind n <? fst x)%Z || (fst x <? n_ind c)%Z) (rev nc) in
    let loc := (List.length nc - List.length skipped)%nat in
    do wc1 <- py_set wc (n_ind n) (firstn loc nc ++ [(n_ind c, rot 1 (n_typ c))] ++ skipn loc nc)%list;
    do cc <- py_index wc1 (n_ind c);
    do wc2 <- py_set wc1 (n_ind c) (cc ++ [(n_ind n, n_typ c)])%list;
    Ok (wc2, cups ++ [(n_ind c, n_ind n)])%list
  else
    let loc := List.length (take_while (fun x : wcomp => (fst x <? n_ind n)%Z || (n_ind c <? fst x)%Z) nc) in
    do wc1 <- py_set wc (n_ind n) (firstn loc nc ++ [(n_ind c, rot (-1) (n_typ c))] ++ skipn loc nc)%list;
    do cc <- py_index wc1 (n_ind c);
    do wc2 <- py_set wc1 (n_ind c) ((n_ind n, n_typ c) :: cc);
    Ok (wc2, cups ++ [(n_ind n, n_ind c)])%list.
(** 735-794: level by level *)
Fixpoint walk (fuel : nat) (curr : list node) (st : wcomps * list (Z * Z)) : res (wcomps * list (Z * Z)) :=
  match fuel with
  | O => Ok st
  | S f => match curr with
           | [] => Ok st
           | _ => do st' <- foldM (fun st n => foldM (add_child n) (ordered_children n) st) curr st; walk f (List.concat (map ordered_children curr)) st'
           end
  end.
(** 724-733 *)
Definition components (root : node) (ntok : nat) : res (wcomps * list (Z * Z)) :=
  do wc <- py_set (repeat [] ntok) (n_ind root) [((-1)%Z, n_typ root)];
  walk (S (size root)) [root] (wc, []).

(** 796-816: the global positions of the components; the free wires *)
Definition wdict := list (Z * list nat).
Fixpoint word_dict (g : nat) (cs : list wcomp) (d : wdict) (free : list nat) : nat * wdict * list nat :=
  match cs with
  | [] => (g, d, free)
  | (o, t) :: cs' => let inds := seq g (List.length t) in word_dict (g + List.length t) cs' (d_set Z.eqb o inds d) (if (o =? -1)%Z then inds else free)
  end.
Fixpoint word_dicts (g : nat) (wc : wcomps) (free : list nat) : list wdict * list nat :=
  match wc with
  | [] => ([], free)
  | cs :: wc' => let '(g', d, free') := word_dict g cs [] free in let '(ds, free'') := word_dicts g' wc' free' in (d :: ds, free'')
  end.

(** 640-693 [_fix_auxiliary_types] *)
Definition aux_ty : ty := [("s", 1%Z); ("n", 2%Z)].
Definition min_list (l : list nat) : res nat := match l with [] => Err ValueError | x :: l' => Ok (fold_left Nat.min l' x) end.
Definition fix_at (st : list wdict * wcomps) (i : nat) : res (list wdict * wcomps) :=
  let '(ds, wc) := st in
  match nth_error wc i with
  | Some [c0; c1] =>
      if (i <? List.length wc - 1)%nat && (Z.of_nat i <? fst c0)%Z && match nth_error wc (S i) with Some ((o, t) :: _) => (o =? Z.of_nat i)%Z && ty_eqb t aux_ty | _ => false end
      then
        let wc' := set_nth i [c1; c0] wc in
        match nth_error ds i with
        | None => Err IndexError
        | Some d =>
            if negb (List.length d =? 2)%nat then Err AssertionError
            else
              do ms <- mapM (fun p => min_list (snd p)) d;
              do start <- min_list ms;
              let '(_, d', _) := word_dict start [c1; c0] [] [] in
              Ok (set_nth i d' ds, wc')
        end
      else Ok st
  | _ => Ok st
  end.
Definition fix_auxiliary (ds : list wdict) (wc : wcomps) : res (list wdict * wcomps) := foldM fix_at (seq 0 (List.length wc)) (ds, wc).

(** 825-835 *)
Inductive mkind := KCup | KSwap | KFree.
Definition morph := (mkind * nat * nat)%type.
Definition cup_morphs (ds : list wdict) (ab : Z * Z) : res (list morph) :=
  let '(a, b) := ab in
  do da <- py_index ds a;
  do s <- match d_get Z.eqb b da with Some s => Ok s | None => Err KeyError end;
  do db <- py_index ds b;
  do e <- match d_get Z.eqb a db with Some e => Ok e | None => Err KeyError end;
  if (List.length s =? List.length e)%nat then Ok (map (fun '(x, y) => (KCup, x, y)) (combine (rev s) e)) else Err AssertionError.
Definition gap (m : morph) : Z := let '(_, a, b) := m in (Z.abs (Z.of_nat a - Z.of_nat b) - 1)%Z.
Fixpoint insert_gap (m : morph) (l : list morph) : list morph := match l with [] => [m] | x :: l' => if (gap m <? gap x)%Z then m :: l else x :: insert_gap m l' end.
Definition sort_gap (l : list morph) : list morph := fold_left (fun acc m => insert_gap m acc) l [].
(** 836-839: the free wires and their places in the list of morphisms (a dictionary) *)
Definition free_places (k : nat) (free : list nat) : list (nat * nat) := fold_left (fun d '(i, w) => d_set Nat.eqb w (k + i)%nat d) (combine (seq 0 (List.length free)) free) [].

(** 849-897: swaps.  The state of the loop over the later morphisms: the list, [m_l], [m_r], the swaps *)
Definition sw_state := (list morph * nat * nat * list morph)%type.
Definition sw_other (fp : list (nat * nat)) (st : sw_state) (j : nat) : res sw_state :=
  let '(ms, ml, mr, sw) := st in
  match nth_error ms j with
  | None => Err IndexError
  | Some (ot, ol, or) =>
      if (ol =? or)%nat then
        if (ml <? ol)%nat && (ol <? mr)%nat then Ok (set_nth j (ot, ml, ml) ms, ol, mr, (sw ++ [(KSwap, ml, ol)])%list) else Ok st
      else if (ol <? ml)%nat && (ml <? or)%nat && (or <? mr)%nat then
        let '(ms1, ml1, sw1) := fold_left (fun '(ms, ml, sw) '(fw, fi) => if (ml <? fw)%nat && (fw <? or)%nat then (set_nth fi (KFree, ml, ml) ms, fw, (sw ++ [(KSwap, ml, fw)])%list) else (ms, ml, sw)) fp (ms, ml, sw) in
        Ok (set_nth j (ot, ol, ml1) ms1, or, mr, (sw1 ++ [(KSwap, ml1, or)])%list)
      else if (ml <? ol)%nat && (ol <? mr)%nat && (mr <? or)%nat then
        let '(ms1, ol1, sw1) := fold_left (fun '(ms, ol, sw) '(fw, fi) => if (ol <? fw)%nat && (fw <? mr)%nat then (set_nth fi (KFree, ol, ol) ms, fw, (sw ++ [(KSwap, ol, fw)])%list) else (ms, ol, sw)) fp (ms, ol, sw) in
        Ok (set_nth j (ot, mr, or) ms1, ml, ol1, (sw1 ++ [(KSwap, ol1, mr)])%list)
      else Ok st
  end.
Definition sw_step (fp : list (nat * nat)) (n : nat) (st : list morph * list morph) (i : nat) : res (list morph * list morph) :=
  let '(ms, out) := st in
  match nth_error ms i with
  | None => Err IndexError
  | Some (t, l, r) =>
      do (x : sw_state) <- foldM (sw_other fp) (seq (S i) (n - S i)) (ms, l, r, []);
      let '(ms', l', r', sw) := x in Ok (ms', (out ++ sw ++ [(t, l', r')])%list)
  end.
Definition with_swaps (fp : list (nat * nat)) (ms : list morph) : res (list morph) := rmap snd (foldM (sw_step fp (List.length ms)) (seq 0 (List.length ms)) (ms, [])).

(** 898-926: each morphism with its offset (the same first index, at first); a later free wire has no box *)
Notation placed := (mkind * Z * Z * Z)%type.
Definition shift (ml mr : Z) (x : placed) : placed :=
  let '(t, l, r, off) := x in
  if ((l <? ml) && (ml <? mr) && (mr <? r))%Z then (t, l, r - 2, off)%Z
  else if ((mr <? l) && (l <? r))%Z then (t, l - 2, r - 2, off - 2)%Z
  else x.
Fixpoint draw (fuel : nat) (xs : list placed) (d : diagram) : res diagram :=
  match fuel, xs with
  | S f, (t, ml, mr, off) :: xs' =>
      let tl := py_slice (cod d) (Some ml) (Some (ml + 1)%Z) in
      let tr := py_slice (cod d) (Some mr) (Some (mr + 1)%Z) in
      do b <- match t with KCup => cups tl tr false | _ => swap tl tr end;
      do d' <- d_then d (tensor (tensor (id (py_slice (cod d) None (Some off))) b) (id (py_slice (cod d) (Some (off + 2)%Z) None)));
      draw f (match t with KCup => map (shift ml mr) xs' | _ => xs' end) d'
  | _, _ => Ok d
  end.
Definition is_free (m : morph) : bool := let '(t, _, _) := m in match t with KFree => true | _ => false end.
Definition place (ms : list morph) : list placed :=
  let offs := map (fun m : morph => let '(_, l, _) := m in Z.of_nat l) ms in
  map (fun '((t, l, r), o) => (t, Z.of_nat l, Z.of_nat r, o)) (combine (filter (fun m => negb (is_free m)) ms) offs).
(** 695-928 *)
Definition tree2diagram (root : node) (tokens : list string) (no_morphisms : bool) : res diagram :=
  do (x : wcomps * list (Z * Z)) <- components root (List.length tokens);
  let '(wc, ccups) := x in
  let '(ds, free) := word_dicts 0 wc [] in
  do (y : list wdict * wcomps) <- fix_auxiliary ds wc;
  let '(ds', wc') := y in
  do cms <- mapM (cup_morphs ds') ccups;
  let ms := sort_gap (List.concat cms) in
  let fp := free_places (List.length ms) free in
  let words := map (fun '(tok, cs) => (tok, List.concat (map snd cs))) (combine tokens wc') in
  do nms <- with_swaps fp (ms ++ map (fun w => (KFree, w, w)) free)%list;
  do d <- create_pregroup_diagram words [];
  if no_morphisms then Ok d else draw (List.length (place nms)) (place nms) d.
