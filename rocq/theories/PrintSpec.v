(** Specification of the text drawing of a pregroup diagram (C66, C77). *)
From Coq Require Import Ascii Permutation Sorted.
From Verif Require Import PyBase TyModel DiagModel ReaderModel PrintModel.
Close Scope string_scope.
Set Implicit Arguments. Unset Strict Implicit.

(** ** The cups and swaps of a diagram, on the wires they connect: wires are numbered at the bottom of the words, a cup ends two adjacent wires, a swap acts on two adjacent ones. *)
Inductive tracks : list layer -> list nat -> list morph -> Prop :=
| tr_nil ws : tracks [] ws []
| tr_cup ll x y rv r ls u a b v ms : List.length u = List.length ll -> tracks ls (u ++ v) ms -> tracks ((ll, Cup x y rv, r) :: ls) (u ++ a :: b :: v) (M true a b :: ms)
| tr_swap ll x y r ls u a b v ms : List.length u = List.length ll -> tracks ls (u ++ a :: b :: v) ms -> tracks ((ll, Swap x y, r) :: ls) (u ++ a :: b :: v) (M false a b :: ms).
(** the words of the diagram and what follows them *)
Definition is_word (x : layer) : bool := match l_box x with Word _ _ _ => true | _ => false end.
Fixpoint word_part (ls : list layer) : list (string * ty) := match ls with (_, Word n c _, _) :: ls' => (n, c) :: word_part ls' | _ => [] end.
Definition after_words (d : diagram) : list layer := skipn (List.length (word_part (layers d))) (layers d).
Definition n_wires (d : diagram) : nat := List.length (flat_map snd (word_part (layers d))).

(** ** Layers *)
Definition overlap (m m' : morph) : Prop := m_start m <= m_end m' /\ m_start m' <= m_end m.
(** every morphism with the number of the layer it is drawn in *)
Fixpoint tagged (j : nat) (ls : list (list morph)) : list (morph * nat) := match ls with [] => [] | l :: ls' => map (fun m => (m, j)) l ++ tagged (S j) ls' end.
(** [js] says which layer each of the morphisms [ms] (in the order of the diagram) is in *)
Record scheduled (compress : bool) (ms : list morph) (js : list nat) (ls : list (list morph)) : Prop := {
  sc_len : List.length js = List.length ms;
  sc_all : Permutation (tagged 0 ls) (List.combine ms js);
  (* no two morphisms of a layer overlap; they are listed from left to right *)
  sc_sorted : Forall (StronglySorted (fun m m' => m_end m < m_start m')) ls;
  (* overlapping morphisms keep their order *)
  sc_order : forall i k m m' j j', i < k -> nth_error ms i = Some m -> nth_error ms k = Some m' -> nth_error js i = Some j -> nth_error js k = Some j' -> overlap m m' -> j < j';
  (* with compression, each is as high up as the earlier ones it overlaps allow; without, one morphism per layer, after an empty layer *)
  sc_tight : if compress then forall k m' j', nth_error ms k = Some m' -> nth_error js k = Some (S j') -> exists i m, i < k /\ nth_error ms i = Some m /\ nth_error js i = Some j' /\ overlap m m'
             else ls = [] :: map (fun m => [m]) ms }.
(** the wires still there when layer [j] is drawn *)
Definition ends (m : morph) (w : nat) : Prop := m_cup m = true /\ (w = m_start m \/ w = m_end m).
Definition alive (n : nat) (ls : list (list morph)) (j : nat) (w : nat) : Prop := w < n /\ forall m i, In (m, i) (tagged 0 ls) -> i < j -> ~ ends m w.

(** ** The picture of one layer: what is at each column *)
Definition at_col (l : line) (c : nat) : glyph := nth c l SP.
(** [col w] is the column of wire [w]; [live] the wires still there *)
Section Picture.
  Variables (col : nat -> nat) (live : nat -> Prop) (layer : list morph).
  Definition touched (w : nat) : Prop := exists m, In m layer /\ (w = m_start m \/ w = m_end m).
  Definition middle (m : morph) : nat := col (m_start m) + 1 + (col (m_end m) - col (m_start m) - 2) / 2.
  Definition covered (c : nat) : Prop := (exists w, live w /\ c = col w) \/ exists m, In m layer /\ col (m_start m) <= c <= col (m_end m).
  Definition top_row (l : line) : Prop :=
    (forall w, live w -> ~ touched w -> at_col l (col w) = GBar) /\
    (forall m, In m layer -> at_col l (col (m_start m)) = GBL /\ at_col l (col (m_end m)) = GBR /\
       forall c, col (m_start m) < c < col (m_end m) -> at_col l c = if m_cup m then GLine else if (c =? middle m)%nat then GTR else GLine) /\
    (forall c, ~ covered c -> at_col l c = SP).
  Definition bottom_row (l : line) : Prop :=
    (forall w, live w -> ~ touched w -> at_col l (col w) = GBar) /\
    (forall m, In m layer -> if m_cup m then forall c, col (m_start m) <= c <= col (m_end m) -> at_col l c = SP
       else at_col l (col (m_start m)) = GTL /\ at_col l (col (m_end m)) = GTR /\
            forall c, col (m_start m) < c < col (m_end m) -> at_col l c = if (c =? middle m)%nat then GBL else GLine) /\
    (forall c, ~ covered c -> at_col l c = SP).
  (** a layer with a swap takes two rows, any other one row *)
  Definition pictured (rows : list line) : Prop :=
    if existsb (fun m => negb (m_cup m)) layer then exists a b, rows = [a; b] /\ top_row a /\ bottom_row b else exists a, rows = [a] /\ top_row a.
End Picture.
(** the columns of the wires, given by position *)
Definition col_of (cols : list nat) (w : nat) : nat := nth w cols 0.
(** the rows below the headers are the pictures of the layers, one after the other *)
Inductive drawing (n : nat) (cols : list nat) (all : list (list morph)) : nat -> list (list morph) -> list line -> Prop :=
| dr_nil j : drawing n cols all j [] []
| dr_cons j layer ls rows rest : pictured (col_of cols) (alive n all j) layer rows -> drawing n cols all (S j) ls rest -> drawing n cols all j (layer :: ls) (rows ++ rest).

(** ** Headers *)
(** names are not empty, and the only whitespace in them is the blank *)
Definition name_ok (s : string) : Prop := s <> EmptyString /\ forall c, In c (list_ascii_of_string s) -> is_space c = true -> c = " "%char.
Definition names_ok (d : diagram) : Prop := Forall (fun w => name_ok (fst w) /\ Forall (fun a : atom => name_ok (fst a)) (snd w)) (word_part (layers d)).
(** the text [t] stands in [l] at column [c] *)
Definition text_at (l : line) (c : nat) (t : line) : Prop := forall i g, nth_error t i = Some g -> at_col l (c + i) = g.
(** it is in the middle of the columns from [a] to [a + w], up to half a column *)
Definition centred (a w len p : nat) : Prop := a <= p /\ p + len <= a + w /\ (p - a <= S (a + w - (p + len))) /\ (a + w - (p + len) <= S (p - a)).
Section Headers.
  Variables (spacing : nat) (use_at : bool).
  Definition sep : line := if use_at then chs " @ " else [GDot].
  (** the types of a word, separated by dots (or @ signs) *)
  Fixpoint type_text (t : ty) : line := match t with [] => [] | [a] => show a | a :: t' => show a ++ sep ++ type_text t' end.
  Definition width (w : string * ty) : nat := Nat.max (String.length (fst w)) (List.length (type_text (snd w))).
  (** where each word starts *)
  Fixpoint starts (a : nat) (ws : list (string * ty)) : list nat := match ws with [] => [] | w :: ws' => a :: starts (a + width w + spacing) ws' end.
  (** the type text is one column to the right of where the columns of the wires are computed: the word is longer, by an odd number, and of odd length *)
  Definition shifted (w : string * ty) : bool := Nat.odd (width w - List.length (type_text (snd w))) && Nat.odd (width w).
  Definition inside (words : list (string * ty)) (c : nat) : Prop := exists i w a, nth_error words i = Some w /\ nth_error (starts 0 words) i = Some a /\ a <= c < a + width w.
  Record headed (words : list (string * ty)) (cols : list nat) (word_line under type_line : line) : Prop := {
    hd_word : forall i w a, nth_error words i = Some w -> nth_error (starts 0 words) i = Some a -> exists p, centred a (width w) (String.length (fst w)) p /\ text_at word_line p (chs (fst w));
    hd_under : forall c, (inside words c -> at_col under c = GLine) /\ (~ inside words c -> at_col under c = SP /\ at_col word_line c = SP /\ at_col type_line c = SP);
    hd_type : forall i w a, nth_error words i = Some w -> nth_error (starts 0 words) i = Some a -> exists p, centred a (width w) (List.length (type_text (snd w))) p /\ text_at type_line p (type_text (snd w)) /\
      (* the wires of the word start under the middle of their types *)
      forall k t, nth_error (snd w) k = Some t -> let q := p + List.length (flat_map (fun a => show a ++ sep) (firstn k (snd w))) in
        text_at type_line q (show t) /\ col_of cols (List.length (flat_map snd (firstn i words)) + k) + (if shifted w then 1 else 0) = q + (List.length (show t) - 1) / 2 }.
End Headers.
