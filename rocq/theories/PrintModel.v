(** Model of the text printer ([lambeq/backend/drawing/text_printer.py] 34-258).
    Simplifications: the seven drawing characters of the chosen character set are symbols of their own (the set, 49-66, only says how each is displayed); the text is the
    list of its lines; type names are non-empty, so [(len(t) - 1) // 2] is never negative. *)
From Coq Require Import Ascii.
From Verif Require Import PyBase TyModel DiagModel ReaderModel.
Close Scope string_scope. Set Implicit Arguments. Unset Strict Implicit.

Inductive glyph := Ch (c : ascii) | GBar | GTR | GTL | GBL | GBR | GLine | GDot.
Notation line := (list glyph).
Definition SP : glyph := Ch " "%char.
(** [str.ljust], [str.center] (CPython puts the odd column to the left when the width is odd), [str.rstrip] *)
Definition ljust (l : line) (n : nat) (f : glyph) : line := l ++ repeat f (n - List.length l).
Definition center (l : line) (n : nat) (f : glyph) : line :=
  let pad := n - List.length l in
  let lft := Nat.div2 pad + (if Nat.odd pad && Nat.odd n then 1 else 0) in
  repeat f lft ++ l ++ repeat f (pad - lft).
Fixpoint lstrip_g (l : line) : line := match l with Ch c :: l' => if is_space c then lstrip_g l' else l | _ => l end.
Definition rstrip (l : line) : line := rev (lstrip_g (rev l)).
Definition chs (s : string) : line := map Ch (list_ascii_of_string s).
(** [str] of an atomic type, grammar.py 179-183 *)
Definition show (a : atom) : line :=
  chs (fst a) ++ List.concat (repeat (chs ".l") (Z.to_nat (- snd a))) ++ List.concat (repeat (chs ".r") (Z.to_nat (snd a))).
(** 34-46 *)
Inductive mtype := TId | TCup | TSwap | TStart.
Record morph := M { m_cup : bool; m_start : nat; m_end : nat }.

Section Printer.
  (** 89-92 *)
  Variables (word_spacing : nat) (use_at compress : bool).
  (** ** Headers: 129-155 *)
  Definition type_sep : line := if use_at then chs " @ " else [GDot].
  Definition join (ts : list line) : line := match ts with [] => [] | t :: ts' => t ++ List.concat (map (fun u => type_sep ++ u) ts') end.
  (** 147-150 *)
  Fixpoint columns (last : nat) (ts : list line) : list nat :=
    match ts with
    | [] => []
    | t :: ts' => (last + (List.length t - 1) / 2) :: columns (last + List.length t + List.length type_sep) ts'
    end.
  Record header := H { h_words : line; h_under : line; h_types : line; h_pos : list nat }.
  Definition add_word (h : header) (name : string) (cod : ty) : header :=
    let sep := match h_words h with [] => [] | _ => repeat SP word_spacing end in
    let h := H (h_words h ++ sep) (h_under h ++ sep) (h_types h ++ sep) (h_pos h) in
    let word := chs name in let types := map show cod in let type_str := join types in
    let width := Nat.max (List.length word) (List.length type_str) in
    let last := List.length (h_types h) + Nat.div2 (width - List.length type_str) in
    H (h_words h ++ center word width SP) (h_under h ++ repeat GLine width) (h_types h ++ center type_str width SP) (h_pos h ++ columns last types).
  Fixpoint headers (h : header) (bs : list box) : header :=
    match bs with
    | Word name cod _ :: bs' => headers (add_word h name cod) bs'
    | _ => h
    end.
  (** ** Layers: 157-197 *)
  (** 171-179: the place of the new morphism in a layer, [None] on conflict *)
  Fixpoint fit (s e : nat) (i : nat) (layer : list morph) : option nat :=
    match layer with
    | [] => Some i
    | m :: l' => if (e <? m_start m)%nat then Some i else if (s <=? m_end m)%nat then None else fit s e (S i) l'
    end.
  (** 168-184 *)
  Fixpoint back (s e : nat) (rl : list (list morph)) (index li : nat) : nat * nat :=
    match rl with
    | [] => (index, li)
    | layer :: rl' => match fit s e 0 layer with None => (index, li) | Some i => back s e rl' i (li - 1) end
    end.
  (** 186-191 *)
  Definition place (m : morph) (ls : list (list morph)) : list (list morph) :=
    let '(index, li) := if compress then back (m_start m) (m_end m) (rev ls) 0 (List.length ls) else (0, List.length ls) in
    match nth_error ls li with
    | Some l => firstn li ls ++ (firstn index l ++ m :: skipn index l) :: skipn (S li) ls
    | None => ls ++ [[m]]
    end.
  (** 160-193 *)
  Fixpoint process (bs : list (box * nat)) (scan : list nat) (ls : list (list morph)) : res (list (list morph)) :=
    match bs with
    | [] => Ok ls
    | (b, o) :: bs' =>
        match b with
        | Word _ _ _ => process bs' scan ls
        | _ =>
            match nth_error scan o, nth_error scan (o + List.length (b_dom b) - 1) with
            | Some s, Some e =>
                let cup := match b with Cup _ _ _ => true | _ => false end in
                process bs' (if cup then firstn o scan ++ skipn (o + List.length (b_dom b)) scan else scan) (place (M cup s e) ls)
            | _, _ => Err IndexError
            end
        end
    end.
  (** ** Drawing: 206-258 *)
  Notation wires := (list (nat * nat)).
  Fixpoint lookup {A} (w : nat) (ws : list (nat * A)) : option A := match ws with [] => None | (i, n) :: ws' => if (i =? w)%nat then Some n else lookup w ws' end.
  Fixpoint set_key {A} (w : nat) (v : A) (ws : list (nat * A)) : list (nat * A) := match ws with [] => [(w, v)] | (i, n) :: ws' => if (i =? w)%nat then (i, v) :: ws' else (i, n) :: set_key w v ws' end.
  Definition del_key {A} (w : nat) (ws : list (nat * A)) : res (list (nat * A)) := match lookup w ws with Some _ => Ok (filter (fun p => negb (fst p =? w)%nat) ws) | None => Err KeyError end.
  (** 219-224 *)
  Definition height (layer : list morph) : nat := if existsb (fun m => negb (m_cup m)) layer then 2 else 1.
  (** 226-229 *)
  Definition wire_types (layer : list morph) (ws : wires) : list (nat * mtype) :=
    fold_left (fun ts m => set_key (m_end m) (if m_cup m then TCup else TSwap) (set_key (m_start m) TStart ts)) layer (map (fun p => (fst p, TId)) ws).
  (** 232-256: one wire; the second line is unused when the height is 1 *)
  Definition draw_wire (two : bool) (ws : wires) (st : line * line) (p : nat * mtype) : res (line * line) :=
    let '(l0, l1) := st in
    match lookup (fst p) ws with
    | None => Err KeyError
    | Some off =>
        match snd p with
        | TId => Ok (ljust l0 off SP ++ [GBar], if two then ljust l1 off SP ++ [GBar] else l1)
        | TCup => Ok (ljust (l0 ++ [GBL]) off GLine ++ [GBR], l1)
        | TSwap =>
            let diff := off - List.length l0 in
            Ok (l0 ++ GBL :: center [GTR] (diff - 1) GLine ++ [GBR], ljust l1 (List.length l0) SP ++ GTL :: center [GBL] (diff - 1) GLine ++ [GTR])
        | TStart => Ok (ljust l0 off SP, l1)
        end
    end.
  Definition draw_layer (layer : list morph) (ws : wires) : res (list line) :=
    let two := (height layer =? 2)%nat in
    do st <- foldM (draw_wire two ws) (wire_types layer ws) ([], []);
    Ok (if two then [fst st; snd st] else [fst st]).
  (** 195-204 *)
  Fixpoint draw (ls : list (list morph)) (ws : wires) : res (list line) :=
    match ls with
    | [] => Ok []
    | layer :: ls' =>
        do rows <- draw_layer layer ws;
        do ws' <- foldM (fun ws m => if m_cup m then do ws1 <- del_key (m_start m) ws; del_key (m_end m) ws1 else Ok ws) layer ws;
        do rest <- draw ls' ws';
        Ok (rows ++ rest)
    end.
  (** 105-208 *)
  Definition diagram2str (d : diagram) : res (list line) :=
    if negb (is_pregroup d) then Err ValueError
    else
      let h := headers (H [] [] [] []) (boxes d) in
      do ls <- process (List.combine (boxes d) (offsets d)) (seq 0 (List.length (h_pos h))) [[]];
      do rows <- draw ls (List.combine (seq 0 (List.length (h_pos h))) (h_pos h));
      Ok (rstrip (h_words h) :: h_under h :: rstrip (h_types h) :: rows).
End Printer.
