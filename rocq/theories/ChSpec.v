(** Specification of a cell of the chart (C84). *)
From Verif Require Import PyBase BobModel ChModel.
Set Implicit Arguments. Unset Strict Implicit.
(** what is assumed of the comparison: a total order up to equality of scores *)
Record score_order S (ltb : S -> S -> bool) : Prop := { so_asym : forall a b, ltb a b = true -> ltb b a = false; so_trans : forall a b c, ltb b a = false -> ltb c b = false -> ltb c a = false }.
Section Spec.
  Variables (T C S : Type) (cat_of : T -> C) (score : T -> S) (ltb : S -> S -> bool) (eqc : C -> C -> bool).
  (** [a] is at least as good as [b] *)
  Definition ge (a b : T) : Prop := ltb (score a) (score b) = false.
  Definition descending (l : list T) : Prop := forall i j a b, (i < j)%nat -> nth_error l i = Some a -> nth_error l j = Some b -> ge a b.
  Definition one_per_category (l : list T) : Prop := forall i j a b, i <> j -> nth_error l i = Some a -> nth_error l j = Some b -> eqc (cat_of a) (cat_of b) = false.
  (** at most [b] trees, except that trees as good as the last allowed one stay *)
  Definition within_beam (b : nat) (l : list T) : Prop := forall i t u, (b <= i)%nat -> nth_error l (b - 1) = Some t -> nth_error l i = Some u -> ge u t.
  (** a tree offered to the cell is there, or a tree at least as good with the same category is, or the beam is full of better trees *)
  Definition kept (b : nat) (l : list T) (t : T) : Prop :=
    In t l \/ (exists u, In u l /\ eqc (cat_of u) (cat_of t) = true /\ ge u t) \/ ((b <= List.length l)%nat /\ forall u, In u l -> ltb (score t) (score u) = true).
End Spec.

(** ** Specification of parsing (C85) *)
Section Parsing.
  Variables (S : Type) (add : S -> S -> S).
  Variables (lexical : string -> string -> nat -> res ptree) (combine : ptree -> ptree -> res (list ptree)) (change raise_ : ptree -> list ptree).
  Variables (rid : string -> list cat -> option nat) (missing_cat missing_span : S) (weigh : S -> S).
  Variable st : sentence S.
  (** the points the tagger gives to a sequence of categories over a span *)
  Definition points (s e : nat) (id : option nat) : S :=
    match id with
    | None => missing_cat
    | Some i => match get_span st s e with
                | Some sp => match find (fun p => Nat.eqb (fst p) i) sp with Some p => snd p | None => missing_span end
                | None => missing_span
                end
    end.
  (** the entry of the tagger's table for the category of a binary tree: an NP[nb] that is not in the table counts as NP *)
  Definition binary_id (x : ptree) : option nat :=
    if coordinated x then rid "conj"%string [p_cat x]
    else match rid "binary"%string [p_cat x] with Some i => Some i | None => if atomk_eqb (c_atom (p_cat x)) ANP then rid "binary"%string [At ANP ""%string 0 None] else None end.
  (** the score of a tree without the points of its top span *)
  Definition bare (t : stree S) : S := match t with TBin _ l r _ => add (t_score l) (t_score r) | t => t_score t end.
  Definition not_unary (t : stree S) : Prop := match t with TUn _ _ _ => False | _ => True end.
  (** trees over the words from [s] to [e]: tagged words, combined by the rules, below the root with at most one type change and one type raising above each constituent *)
  Inductive derives : nat -> nat -> stree S -> Prop :=
  | dv_leaf i w tg c p x : nth_error (words st) i = Some w -> nth_error (tags st) i = Some tg -> In (c, p) tg -> lexical c w (i + 1) = Ok x -> derives i i (TLeaf x w (i + 1) (weigh p))
  | dv_bin s m e l r xs x : derives s m l -> derives (m + 1) e r -> combine (t_node l) (t_node r) = Ok xs -> In x xs ->
      derives s e (TBin x l r (add (add (t_score l) (t_score r)) (points s e (binary_id x))))
  | dv_change s e t x : derives s e t -> not_unary t -> (e - s + 1 < List.length (words st))%nat -> In x (change (t_node t)) ->
      derives s e (TUn x t (add (bare t) (points s e (rid "unary"%string [p_cat x; t_cat t]))))
  | dv_raise s e t x : derives s e t -> not_unary t -> (e - s + 1 < List.length (words st))%nat -> In x (raise_ (t_node t)) ->
      derives s e (TUn x t (add (bare t) (points s e (rid "unary"%string [p_cat x; t_cat t]))))
  | dv_both s e t y sc x : derives s e (TUn y t sc) -> not_unary t -> In y (change (t_node t)) -> In x (raise_ y) ->
      derives s e (TUn x (TUn y t sc) (add (bare t) (points s e (rid "unary"%string [p_cat x; p_cat y; t_cat t])))).
  (** the words of a tree, with their positions counted from 1 *)
  Fixpoint yield_ (t : stree S) : list (string * nat) := match t with TLeaf _ w i _ => [(w, i)] | TUn _ c _ => yield_ c | TBin _ l r _ => (yield_ l ++ yield_ r)%list end.
  (** a tree allowed at the root *)
  Definition root_ok (roots : option (list cat)) (t : stree S) : Prop := match roots with None => True | Some cs => exists c, In c cs /\ c_matches c (t_cat t) = true end.
End Parsing.
(** what is assumed of addition: it respects the order *)
Record score_add S (ltb : S -> S -> bool) (add : S -> S -> S) : Prop := { sa_left : forall a b c, ltb b a = false -> ltb (add b c) (add a c) = false; sa_right : forall a b c, ltb b a = false -> ltb (add c b) (add c a) = false }.
(** What is assumed of a parser: scores that are ordered and added as numbers are, a beam of at least one tree,
    an identity test that only identifies trees of one category, equality of categories, and rules and lexicon that stay within a set of nodes with such categories. *)
Record sane S (ltb : S -> S -> bool) (add : S -> S -> S) (ninf : S) (eqc : cat -> cat -> bool) (is_same : stree S -> stree S -> bool)
    (lexical : string -> string -> nat -> res ptree) (combine : ptree -> ptree -> res (list ptree)) (change raise_ : ptree -> list ptree) (b : nat) (node : ptree -> Prop) : Prop := {
  sn_order : score_order ltb; sn_add : score_add ltb add; sn_ninf : forall a, ltb a ninf = false; sn_beam : (1 <= b)%nat;
  sn_refl : forall x, node x -> eqc (p_cat x) (p_cat x) = true; sn_sym : forall x y, node x -> node y -> eqc (p_cat x) (p_cat y) = true -> eqc (p_cat y) (p_cat x) = true;
  sn_trans : forall x y z, node x -> node y -> node z -> eqc (p_cat x) (p_cat y) = true -> eqc (p_cat y) (p_cat z) = true -> eqc (p_cat x) (p_cat z) = true;
  sn_same : forall t, is_same t t = true; sn_same_cat : forall t u, is_same t u = true -> eqc (t_cat t) (t_cat u) = true;
  sn_lexical : forall c w i x, lexical c w i = Ok x -> node x; sn_combine : forall l r xs x, node l -> node r -> combine l r = Ok xs -> In x xs -> node x;
  sn_change : forall x y, node x -> In y (change x) -> node y; sn_raise : forall x y, node x -> In y (raise_ x) -> node y }.
(** the top of a tree below its unary steps *)
Fixpoint core S (t : stree S) : stree S := match t with TUn _ c _ => core c | _ => t end.
(** trees the parser could put into a cell: a word, or two trees of shorter cells combined, with the unary steps above; over the whole sentence only allowed roots *)
Definition candidate S (der : nat -> nat -> stree S -> Prop) (st : sentence S) (roots : option (list cat)) (cell_of : nat -> nat -> list (stree S)) (s e : nat) (t : stree S) : Prop :=
  der s e t /\ (e - s + 1 = List.length (words st) -> root_ok roots t) /\
  match core t with TBin _ l r _ => exists m, In l (cell_of s m) /\ In r (cell_of (m + 1) e) | _ => True end /\
  match t with TLeaf _ _ _ _ => True | _ => get_span st s e <> None end.
(** the combinations in a tree: the two trees combined and the node they give *)
Fixpoint combinations S (t : stree S) : list (ptree * ptree * ptree) :=
  match t with TLeaf _ _ _ _ => [] | TUn _ c _ => combinations c | TBin x l r _ => ((t_node l, t_node r, x) :: combinations l ++ combinations r)%list end.
(** the unary steps in a tree, child first, and its words *)
Fixpoint unary_steps S (t : stree S) : list (ptree * ptree) := match t with TLeaf _ _ _ _ => [] | TUn x c _ => (t_node c, x) :: unary_steps c | TBin _ l r _ => (unary_steps l ++ unary_steps r)%list end.
Fixpoint tagged_words S (t : stree S) : list (ptree * string) := match t with TLeaf x w _ _ => [(x, w)] | TUn _ c _ => tagged_words c | TBin _ l r _ => (tagged_words l ++ tagged_words r)%list end.
(** a unary step of Bobcat's grammar: a type change or a type raising that the tables give for the category; the head stays the head *)
Definition unary_ok (eqc : cat -> cat -> bool) (changes raises : list (cat * list cat)) (c x : ptree) : Prop :=
  (let 'PT _ _ l r _ := x in (l, r)) = (Some c, None) /\
  ((p_rule x = RU /\ In (p_cat x) (match_rule eqc changes (p_cat c)) /\ forall v, p_vars c (c_var (p_cat c)) = Some v -> c_var (p_cat x) <> 0%nat -> p_vars x (c_var (p_cat x)) = Some v) \/
   (p_rule x = (if Ascii.eqb (c_dir (p_cat x)) "/" then RFTR else RBTR) /\ In (p_cat x) (match_rule eqc raises (p_cat c)) /\ forall v, p_vars c (c_var (p_cat c)) = Some v -> p_vars x 1 = Some v)).
(** a word with a category of the lexicon, of which it is the head *)
Definition tagged_ok (cats : list (string * cat)) (x : ptree) (w : string) : Prop :=
  p_rule x = RL /\ (exists name, In (name, p_cat x) cats) /\ (forall v, p_vars x v = if Nat.eqb v (c_var (p_cat x)) then Some ([w], true) else None).
(** what the cells of the chart contain *)
Definition cell_trees S (ch : chart S) (s e : nat) : list (stree S) := match get_cell ch s e with Some c => trees c | None => [] end.
(** offering several batches of trees to a cell *)
Definition offer T C S (cat_of : T -> C) (score : T -> S) ltb ninf eqc is_same b (batches : list (list T)) : res (@cell T C S) :=
  foldM (fun c ts => rmap fst (cell_add cat_of score ltb eqc is_same b c ts)) batches (empty_cell ninf).
(** ** Concrete parsers for the examples: scores are integers or minus infinity *)
Definition zlt (a b : option Z) : bool := match a, b with None, Some _ => true | Some x, Some y => (x <? y)%Z | _, None => false end.
Definition zadd (a b : option Z) : option Z := match a, b with Some x, Some y => Some (x + y)%Z | _, _ => None end.
Definition ex_eqc := c_equals (fun _ _ => 0%Z) (fun _ _ _ => 0%Z).
Definition ex_same (t u : stree (option Z)) : bool := ex_eqc (t_cat t) (t_cat u).
Definition ex_np := At ANP ""%string 1 None.
Definition ex_s (f : string) := At AS f 1 None.
Definition ex_vp := Sl "\" (At AS "dcl"%string 1 None) (At ANP ""%string 2 None) 1 None 0.
Definition ex_tr := Sl "/" (At AS ""%string 1 None) (Sl "\" (At AS ""%string 1 None) (At ANP ""%string 2 None) 1 None 0) 1 None 0.
Definition ex_cats : list (string * cat) := [("NP", ex_np); ("S\NP", ex_vp); ("S", ex_s "dcl"%string)]%string.
Definition ex_rid (l : string) (cs : list cat) : option nat := match cs with [c] => if ex_eqc c (ex_s "dcl"%string) then Some 3 else None | _ => None end.
Definition ex_parse (roots : option (list cat)) (b : nat) (max_trees : option Z) (st : sentence (option Z)) :=
  parse zlt zadd None ex_eqc ex_same (bob_lexical ex_cats) (fun l r => combine (fun l => l) l r true (fun _ _ => []) (fun _ _ => []) (fun _ _ => true)) (bob_change ex_eqc []) (bob_raise ex_eqc [(ex_np, [ex_tr])])
    roots ex_rid (Some (-10)%Z) (Some (-20)%Z) (Some 0%Z) (fun s => s) b max_trees st.
Definition ex_sent (tg : list (list (string * option Z))) : sentence (option Z) := Sent ["John"; "sleeps"]%string tg [((0, 0), [(1, Some 2%Z)]); ((1, 1), [(2, Some 1%Z)]); ((0, 1), [(3, Some 5%Z)])].
Definition C85_tags : list (list (string * option Z)) := [[("NP", Some 1%Z); ("S", Some 0%Z)]; [("S\NP", Some 2%Z); ("NP", Some 0%Z)]]%string.
