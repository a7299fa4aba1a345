(** Model of [diagram2tree] (without [break_cycles]) and [_construct_tree] in [lambeq/text2diagram/pregroup_tree_converter.py], lines 31-240 and 293-445.
    Simplifications: a word object is represented by its name and the number of its layer (two words at different layers have different numbers);
    the nodes of the tree are built when their visit ends, since nothing else writes to them: a visit only writes to the visited node and to the children it has made itself. *)
From Verif Require Import PyBase TyModel DiagModel MiscModel TreeModel.
Open Scope string_scope. Set Implicit Arguments. Unset Strict Implicit.

Definition wkey := (string * nat)%type.
Definition wkey_eqb (a b : wkey) : bool := (fst a =? fst b) && (snd a =? snd b)%nat.
Inductive akind := ACup | ASwap | ACap.
Definition akind_eqb (a b : akind) : bool := match a, b with ACup, ACup | ASwap, ASwap | ACap, ACap => true | _, _ => false end.
Definition abox := (akind * nat * nat)%type.
Definition abox_eqb (x y : abox) : bool := let '(k, a, b) := x in let '(k', a', b') := y in akind_eqb k k' && (a =? a')%nat && (b =? b')%nat.
(** [l.remove(x)] *)
Fixpoint remove_val {A} (eq : A -> A -> bool) (x : A) (l : list A) : res (list A) :=
  match l with [] => Err ValueError | y :: l' => if eq y x then Ok l' else rmap (cons y) (remove_val eq x l') end.
Definition list_get {A} (l : list A) (i : nat) : res A := match nth_error l i with Some x => Ok x | None => Err IndexError end.

(** 52-59: words_by_typ_index, types, types_ind, boxes_absolute, words *)
Record dstate := DState { wbt : list (option wkey); types : list atom; tind : list nat; absb : list abox; wds : list (string * nat * ty) }.
(** 101-125: [left_cod[left_cod.index(x)] += 2] *)
Fixpoint bump (x : nat) (l : list nat) : option (list nat) := match l with [] => None | y :: l' => if (y =? x)%nat then Some ((y + 2)%nat :: l') else option_map (cons y) (bump x l') end.
Definition cap_shift (e : nat) (st : list abox * list nat) (b : abox) : list abox * list nat :=
  let '(bs, lc) := st in let '(k, x, y) := b in
  if (e <=? x)%nat then ((bs ++ [(k, x + 2, y + 2)%nat])%list, match bump x lc with None => lc | Some lc1 => match bump y lc1 with None => lc1 | Some lc2 => lc2 end end)
  else if (e <=? y)%nat then ((bs ++ [(k, x, y + 2)%nat])%list, match bump y lc with None => lc | Some lc1 => lc1 end)
  else ((bs ++ [b])%list, lc).
(** 61-145: one layer *)
Definition read_layer (st : dstate) (x : nat * layer) : res dstate :=
  let '(li, ((l, b), r)) := x in
  match b with
  | Word w c _ => Ok (DState (wbt st ++ repeat (Some (w, li)) (List.length c)) (types st ++ c) (tind st) (absb st) (wds st ++ [(w, li, c)]))
  | Cup _ _ _ | Swap _ _ | Cap _ _ _ =>
      let ti := match tind st with [] => seq 0 (List.length (types st)) | t => t end in
      let nl := List.length l in let nr := List.length r in let n := List.length ti in
      let lc := firstn nl ti in
      let rc := match nr with O => [] | _ => skipn (n - nr) ti end in
      let ends := match nr with O => skipn nl ti | _ => firstn (n - nr - nl) (skipn nl ti) end in
      match b with
      | Cap a a' _ =>
          do e <- (if (nl <? n)%nat then list_get ti nl else rmap S (py_index ti (Z.of_nat nl - 1)));
          let '(bs, lc') := fold_left (cap_shift e) (absb st) ([], lc) in
          Ok (DState (firstn e (wbt st) ++ [None; None] ++ skipn e (wbt st)) (firstn e (types st) ++ [a; a'] ++ skipn e (types st)) (lc' ++ [e; S e] ++ map (fun i => i + 2)%nat rc) (bs ++ [(ACap, e, S e)]) (wds st))
      | Swap _ _ => match ends with [x; y] => Ok (DState (wbt st) (types st) (lc ++ [y; x] ++ rc) (absb st ++ [(ASwap, x, y)]) (wds st)) | _ => Err AssertionError end
      | _ => match ends with [x; y] => Ok (DState (wbt st) (types st) (lc ++ rc) (absb st ++ [(ACup, x, y)]) (wds st)) | _ => Err AssertionError end
      end
  | _ => Err OtherError
  end%list.
Definition read_layers (d : diagram) : res dstate := foldM read_layer (combine (seq 0 (List.length (layers d))) (layers d)) (DState [] [] [] [] []).
(** 147-154: a dictionary; the key [None] (caps) is never looked up and is left out *)
Definition typ_lists (wb : list (option wkey)) : list (wkey * list nat) :=
  fold_left (fun d '(i, k) => match k with None => d | Some k => d_set wkey_eqb k (match d_get wkey_eqb k d with Some l => (l ++ [i])%list | None => [i] end) d end) (combine (seq 0 (List.length wb)) wb) [].

(** 171-219: caps *)
Definition touches (b : abox) (x : nat) : bool := let '(_, a, a') := b in (x =? a)%nat || (x =? a')%nat.
Definition is_kind (k : akind) (b : abox) : bool := akind_eqb (fst (fst b)) k.
Definition drop_cap (st : list abox * list nat) (cap : abox) : res (list abox * list nat) :=
  let '(bs, free) := st in let '(_, c1, c2) := cap in
  let cups := filter (fun b => is_kind ACup b && (touches b c1 || touches b c2)) bs in
  do (x : list abox * list nat) <- match cups with
    | [(_, a1, a2); (_, b1, b2)] =>
        let '(e, f) := if (Nat.max a1 b1 <? c1)%nat then (a1, b1) else if (c2 <? Nat.min a2 b2)%nat then (a2, b2) else (Nat.min a1 b1, Nat.max a2 b2) in
        Ok ((bs ++ [(ACup, Nat.min e f, Nat.max e f)])%list, free)
    | [(_, a1, a2)] =>
        match free with
        | [] => Err IndexError
        | f :: _ =>
            let mn := Nat.min (Nat.min a1 a2) (Nat.min c1 c2) in let mx := Nat.max (Nat.max a1 a2) (Nat.max c1 c2) in
            if negb ((f =? a1) || (f =? a2) || (f =? c1) || (f =? c2))%nat then Err AssertionError
            else if (f =? mn)%nat then Ok (bs, [mx]) else if (f =? mx)%nat then Ok (bs, [mn]) else Err OtherError
        end
    | _ => Ok (bs, free)
    end;
  let '(bs1, free1) := x in
  do bs2 <- foldM (fun bs c => remove_val abox_eqb c bs) cups bs1;
  do bs3 <- remove_val abox_eqb cap bs2;
  Ok (bs3, free1).

(** 354-437 [_visit]: the children made so far, in the order of their creation: key, typ, typ_indxs, whether to the left *)
Record child := Child { c_key : wkey; c_typ : ty; c_tix : list nat; c_left : bool }.
Definition cupl := list (nat * nat).
Definition pair_eqb (x y : nat * nat) : bool := (fst x =? fst y)%nat && (snd x =? snd y)%nat.
(** [all_nodes[key]] is the latest *)
Fixpoint upd_last (f : child -> res child) (k : wkey) (l : list child) : res (list child) :=
  match l with
  | [] => Err KeyError
  | c :: l' => if existsb (fun c => wkey_eqb (c_key c) k) l' then rmap (cons c) (upd_last f k l') else if wkey_eqb (c_key c) k then rmap (fun c' => c' :: l') (f c) else Err KeyError
  end.
Section Visit.
  Variables (wb : list (option wkey)) (tys : list atom) (wtl : list (wkey * list nat)) (free : list nat).
  Definition look (k : wkey) : res (list nat) := match d_get wkey_eqb k wtl with Some l => Ok l | None => Err KeyError end.
  Definition vstate := (cupl * list nat * list child)%type.
  Definition take_cup (ti : nat) (box : nat * nat) (st : vstate) : res vstate :=
    let '(cups, tix, made) := st in
    let lft := (snd box =? ti)%nat in
    let e := if lft then fst box else snd box in
    do (k' : option wkey) <- list_get wb e;
    match k' with
    | None => Err AssertionError
    | Some k =>
        do a <- list_get tys e;
        do made' <- (if existsb (fun c => Bool.eqb (c_left c) lft && wkey_eqb (c_key c) k) made
                     then upd_last (fun c => do tx <- remove_val Nat.eqb e (c_tix c); Ok (Child (c_key c) (a :: c_typ c) tx (c_left c))) k made
                     else do l <- look k; do tx <- remove_val Nat.eqb e l; Ok (made ++ [Child k [a] tx lft])%list);
        do tix' <- remove_val Nat.eqb ti tix;
        do cups' <- remove_val pair_eqb box cups;
        Ok (cups', tix', made')
    end.
  (** [for box in all_cups], whose loop body shortens the list *)
  Fixpoint scan (fuel i : nat) (ti : nat) (st : vstate) : res vstate :=
    match fuel with
    | O => Ok st
    | S f => match nth_error (fst (fst st)) i with
             | None => Ok st
             | Some box => if (ti =? fst box)%nat || (ti =? snd box)%nat then do st' <- take_cup ti box st; scan f (S i) ti st' else scan f (S i) ti st
             end
    end.
  Definition visit_pos (st : vstate) (ti : nat) : res vstate := if existsb (Nat.eqb ti) free then Ok st else scan (S (List.length (fst (fst st)))) 0 ti st.
  Definition visit (k : wkey) (tix : list nat) (cups : cupl) : res (list child * cupl) :=
    do ps <- look k;
    do (st : vstate) <- foldM visit_pos ps (cups, tix, []);
    let '(cups', _, made) := st in
    Ok ((rev (filter c_left made) ++ rev (filter (fun c => negb (c_left c)) made))%list, cups').
  (** 439-445: depth first, the first child first; a visit without cups does nothing *)
  Fixpoint build (fuel : nat) (k : wkey) (t : ty) (tix : list nat) (par : option Z) (cups : cupl) : res (node * cupl) :=
    match fuel with
    | O => Ok (Node (fst k) (Z.of_nat (snd k)) t par [], cups)
    | S f =>
        do (x : list child * cupl) <- visit k tix cups;
        do (y : list node * cupl) <- foldM (fun '(ns, cups) c => do (z : node * cupl) <- build f (c_key c) (c_typ c) (c_tix c) (Some (Z.of_nat (snd k))) cups; Ok ((ns ++ [fst z])%list, snd z)) (fst x) ([], snd x);
        Ok (Node (fst k) (Z.of_nat (snd k)) t par (fst y), snd y)
    end.
End Visit.
Definition okey_eqb (a b : option wkey) : bool := match a, b with Some x, Some y => wkey_eqb x y | None, None => true | _, _ => false end.
(** 303-353, 439-445 *)
Definition construct_tree (tys : list atom) (free : list nat) (wb : list (option wkey)) (bs : list abox) : res node :=
  let wtl := typ_lists wb in
  let root_idx := match free with [] => O | i :: _ => i end in
  do t0 <- match free with [] => Ok [] | i :: _ => rmap (fun a => [a]) (list_get tys i) end;
  do (w : option wkey) <- list_get wb root_idx;
  match w with
  | None => Err AssertionError
  | Some k =>
      do ps <- look wtl k;
      do t <- foldM (fun t i => if existsb (Nat.eqb i) ps then rmap (fun a => t ++ [a])%list (list_get tys i) else Ok t) (List.tl free) t0;
      do tix <- foldM (fun l i => if existsb (Nat.eqb i) l then remove_val Nat.eqb i l else Ok l) free ps;
      do ws <- mapM (list_get wb) free;
      do _ <- match ws with
      | w0 :: ws' => if forallb (okey_eqb w0) ws' then Ok tt else Err ValueError
      | [] => Ok tt
      end;
      let cups := map (fun '(_, a, b) => (a, b)) (filter (is_kind ACup) bs) in
      rmap fst (build wb tys wtl free (S (List.length cups)) k t tix None cups)
  end.
(** 31-240 *)
Definition diagram2tree (d : diagram) : res node :=
  do st <- read_layers d;
  match absb st with
  | [] => match wds st with [(w, li, c)] => Ok (Node w (Z.of_nat li) c None []) | _ => Err AssertionError end
  | _ =>
      do (x : list abox * list nat) <- foldM drop_cap (filter (is_kind ACap) (absb st)) (absb st, tind st);
      construct_tree (types st) (snd x) (wbt st) (fst x)
  end.
