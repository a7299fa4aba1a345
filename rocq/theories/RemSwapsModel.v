(** Model of [lambeq/rewrite/rewrite_diagram.py: RemoveSwapsRewriter] (lines 195-421).
    Simplification: [matches] is modelled for diagrams that are already in pregroup form (it then
    returns True without calling [normal_form]), so a call is [rewrite]. Python slices with
    non-negative bounds are written with [firstn]/[skipn]. *)
From Verif Require Import PyBase TyModel DiagModel RewModel RemCupsModel.
Set Implicit Arguments.
Local Open Scope string_scope.
Local Open Scope list_scope.

(** [l[i]] for a non-negative index *)
Definition idx {A} (l : list A) (i : nat) : res A := match nth_error l i with Some a => Ok a | None => Err IndexError end.
(** [l[i] = x]; [del l[i:j]] *)
Fixpoint upd {A} (l : list A) (i : nat) (x : A) : list A :=
  match l, i with [], _ => [] | _ :: l', 0 => x :: l' | y :: l', S i' => y :: upd l' i' x end.
Definition del_slice {A} (l : list A) (i j : nat) : list A := firstn i l ++ skipn (Nat.max i j) l.

Definition is_swap (b : box) : bool := match b with Swap _ _ => true | _ => false end.
(** 308-309, 383-384 *)
Definition atomic_types (d : diagram) : ty := flat_map (fun b => if is_word b then b_cod b else []) (map l_box (layers d)).
(** 388-395: the words and the other boxes, with their offsets *)
Definition with_offsets (p : box -> bool) (d : diagram) : list (box * nat) :=
  flat_map (fun x => if p (l_box x) then [(l_box x, List.length (l_left x))] else []) (layers d).
Definition rs_words (d : diagram) := with_offsets is_word d.
Definition rs_mors (d : diagram) := with_offsets (fun b => negb (is_word b)) d.

(** 397-406: detect swaps and swap the actual types *)
Fixpoint swap_types (ms : list (box * nat)) (types : ty) (scan : list nat) : res ty :=
  match ms with
  | [] => Ok types
  | (b, ofs) :: ms' =>
      if is_swap b then
        do il <- idx scan ofs; do ir <- idx scan (S ofs);
        do tl <- idx types il; do tr <- idx types ir;
        swap_types ms' (upd (upd types il tr) ir tl) scan
      else if is_cup b then swap_types ms' types (del_slice scan ofs (ofs + 2))
      else swap_types ms' types scan
  end.
(** 408-420 *)
Definition rebuild (d0 : ty) (bs : list (box * Z)) : res diagram :=
  foldM (fun acc '(b, o) => then_at acc (to_diag b) o) bs (id d0).
Definition retyped_words (types : ty) (ws : list (box * nat)) : list (box * Z) :=
  map (fun '(b, ofs) => (Word (b_name b) (firstn (List.length (b_cod b)) (skipn ofs types)) 0, Z.of_nat ofs)) ws.
Definition kept_mors (ms : list (box * nat)) : list (box * Z) :=
  flat_map (fun '(b, ofs) => if is_swap b then [] else [(b, Z.of_nat ofs)]) ms.
Definition swapped (d : diagram) : res diagram :=
  let types := atomic_types d in
  do types' <- swap_types (rs_mors d) types (seq 0 (List.length types));
  rebuild (dom d) (retyped_words types' (rs_words d) ++ kept_mors (rs_mors d)).

(** 284-293 [_Morphism]; the words of 275-282 are pairs of a word and its offset *)
Record rs_mor := RsMor { m_box : box; m_start : nat; m_end : nat; m_off : nat; m_deleted : bool }.
(** 316-325 *)
Fixpoint rs_morphisms (ms : list (box * nat)) (scan : list nat) : res (list rs_mor) :=
  match ms with
  | [] => Ok []
  | (b, ofs) :: ms' =>
      do s <- idx scan ofs;
      do e <- py_index scan (Z.of_nat ofs + Z.of_nat (List.length (b_dom b)) - 1);
      do rest <- rs_morphisms ms' (if is_cup b then del_slice scan ofs (ofs + List.length (b_dom b)) else scan);
      Ok (RsMor b s e ofs false :: rest)
  end.
Definition in_rng (i lo len : nat) : bool := Nat.leb lo i && Nat.ltb i (lo + len).
(** 332-337: the inner loop over the morphisms for one word *)
Fixpoint rs_detach (off len : nat) (ms : list rs_mor) (scan : list nat) : list rs_mor * list nat :=
  match ms with
  | [] => ([], scan)
  | m :: ms' =>
      if is_cup (m_box m) && in_rng (m_start m) off len && in_rng (m_end m) off len then
        let '(rest, s) := rs_detach off len ms' (del_slice scan (m_start m - off) (m_start m - off + 2)) in
        (RsMor (m_box m) (m_start m) (m_end m) (m_off m) true :: rest, s)
      else let '(rest, s) := rs_detach off len ms' scan in (m :: rest, s)
  end.
(** 327-351: the loop over the words; [types] are the atomic types *)
Fixpoint rs_wordloop (fuel : nat) (types : ty) (ws : list (box * nat)) (ms : list rs_mor) : res (list box * list rs_mor) :=
  match ws, fuel with
  | (w, off) :: ws', S fuel' =>
      let len := List.length (b_cod w) in
      let '(ms1, scan) := rs_detach off len ms (seq off len) in
      if Nat.eqb (List.length scan) len then
        do r <- rs_wordloop fuel' types ws' ms1; Ok (w :: fst r, snd r)
      else if Nat.ltb 0 (List.length scan) then
        do typ <- mapM (idx types) scan;
        do r <- rs_wordloop fuel' types ws' ms1; Ok (Word (b_name w) typ 0 :: fst r, snd r)
      else
        match ws' with
        | [] => Err IndexError
        | (w2, off2) :: ws2 =>
            rs_wordloop fuel' types ((Word (append (append (b_name w) " ") (b_name w2)) (b_cod w2) 0, off2) :: ws2) ms1
        end
  | _, _ => Ok ([], ms)
  end.
(** 353-358 *)
Fixpoint rs_word_offsets (k : nat) (ws : list box) : list (box * Z) :=
  match ws with [] => [] | w :: ws' => (w, Z.of_nat k) :: rs_word_offsets (k + List.length (b_cod w)) ws' end.
(** 368-372: [for j in range(m_idx)] -- [mor_offsets[j] -= 2] *)
Definition zupd (l : list Z) (j : nat) : res (list Z) :=
  match nth_error l j with Some x => Ok (upd l j (x - 2)%Z) | None => Err IndexError end.
Fixpoint rs_shift (before : list rs_mor) (j : nat) (m : rs_mor) (offs : list Z) : res (list Z) :=
  match before with
  | [] => Ok offs
  | b :: before' =>
      if negb (m_deleted b) && Nat.ltb (m_start m) (m_start b) then
        do offs' <- zupd offs j; rs_shift before' (S j) m offs'
      else rs_shift before' (S j) m offs
  end.
(** 360-372 *)
Fixpoint rs_offsets (before ms : list rs_mor) (offs : list Z) : res (list Z) :=
  match ms with
  | [] => Ok offs
  | m :: ms' =>
      if negb (m_deleted m) then rs_offsets (before ++ [m]) ms' (offs ++ [Z.of_nat (m_off m)])
      else do offs' <- rs_shift before 0 m offs; rs_offsets (before ++ [m]) ms' offs'
  end.
(** 297-379 [_remove_detached_cups] *)
Definition remove_detached (d : diagram) : res diagram :=
  if negb (is_pregroup d) then Err ValueError else
  let types := atomic_types d in
  do ms <- rs_morphisms (rs_mors d) (seq 0 (List.length types));
  do wm <- rs_wordloop (List.length (rs_words d)) types (rs_words d) ms;
  do offs <- rs_offsets [] (snd wm) [];
  rebuild (dom d) (rs_word_offsets 0 (fst wm) ++
                   combine (map m_box (filter (fun m => negb (m_deleted m)) (snd wm))) offs).
(** 381-421 [rewrite] *)
Definition remove_swaps (d : diagram) : res diagram := do e <- swapped d; remove_detached e.
