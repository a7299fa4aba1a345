(** Specification vocabulary for DisCoCirc circuits (C71): what a diagram does to the values carried by its wires, and what the circuit of a text should do to the values of its entities. *)
From Coq Require Import Permutation Sorted DecimalString.
From Verif Require Import PyBase TyModel DiagModel DiagSpec MiscSpec TreeModel TreeSpec.
Close Scope string_scope. Set Implicit Arguments. Unset Strict Implicit.

(** ** Values on wires *)
Section Values.
  Variables (V : Type) (bsem : box -> list V -> list V) (merge : list V -> V).
  (** a reading of boxes as functions on values: swaps exchange, spiders with one input copy, spiders with one output merge *)
  Record reading : Prop := Reading {
    r_arity : forall b v, List.length v = List.length (b_dom b) -> List.length (bsem b v) = List.length (b_cod b);
    r_swap : forall a b x y, bsem (Swap a b) [x; y] = [y; x];
    r_copy : forall a m x, bsem (Spider a 1 m) [x] = repeat x m;
    r_merge : forall a m v, List.length v = m -> bsem (Spider a m 1) v = [merge v] }.
  Definition lrun (v : list V) (x : layer) : list V :=
    let '(l, b, r) := x in firstn (List.length l) v ++ bsem b (firstn (List.length (b_dom b)) (skipn (List.length l) v)) ++ skipn (List.length l + List.length (b_dom b)) v.
  Definition drun (d : diagram) (v : list V) : list V := fold_left lrun (layers d) v.
End Values.

(** ** Sentences *)
(** a noun without arguments *)
Definition bare_noun (m : node) : bool := match n_children m with [] => ty_eqb (n_typ m) [a_n] | _ => false end.
(** the nouns of a sentence that are not pruned, each before those below it *)
Definition noun_slots (pruned : list Z) (n : node) : list node := filter (fun m => bare_noun m && negb (existsb (Z.eqb (n_ind m)) pruned)) (subtrees n).
Definition noun_box (m : node) : box := Box (n_word m) [] [a_n] 0.
Definition arguments (t : ty) : ty := filter (fun a : atom => negb (snd a =? 0)%Z) t.
(** neither nouns below nor arguments of its own *)
Definition floating (pruned : list Z) (m : node) : bool := match noun_slots pruned m, arguments (n_typ m) with [], [] => true | _, _ => false end.
(** the words shown as boxes and frames: all but bare nouns, floating words and what is below these *)
Fixpoint shown (pruned : list Z) (n : node) : list string :=
  let 'Node w i t p cs := n in if bare_noun n || floating pruned n then [] else w :: List.concat (map (shown pruned) cs).
(** the names of boxes and frames, each before those inside *)
Fixpoint box_words (b : box) : list string :=
  match b with
  | Box w _ _ _ => [w]
  | Frame w _ _ cs _ => w :: List.concat (map (fun c => match c with CBox b' => box_words b' | CDiag _ _ ls => List.concat (map (fun '(_, b', _) => box_words b') ls) end) cs)
  | _ => []
  end.
Definition diagram_words (d : diagram) : list string := List.concat (map (fun x => box_words (l_box x)) (layers d)).

(** the tree with other word positions, without parent attributes *)
Fixpoint relabel (f : Z -> Z) (n : node) : node := let 'Node w i t _ cs := n in Node w (f i) t None (map (relabel f) cs).
(** [js] are positions, in order, at which [s] has the words [ws] *)
Definition aligned (s ws : list string) (js : list nat) : Prop := StronglySorted lt js /\ Forall2 (fun w j => nth_error s j = Some w) ws js.
(** a parse whose root has another type than a sentence or a noun gets such a type and an unnamed noun, placed at the last token *)
Inductive completed (s : list string) : node -> node -> Prop :=
| completed_ok n : n_typ n = [a_s] \/ n_typ n = [a_n] -> completed s n n
| completed_add w i t p cs : t <> [a_s] -> t <> [a_n] -> completed s (Node w i t p cs) (Node w i [a_s] p (cs ++ [Node EmptyString (Z.of_nat (List.length s) - 1) [a_n] None []])).

(** ** Texts *)
Section Text.
  Variables (K : Type) (eqk : K -> K -> bool).
  Definition mem (e : K) (l : list K) : bool := existsb (fun x => eqk x e) l.
  (** the entities of [l] that are not [known], each with the box of its first mention *)
  Fixpoint news {B} (known : list K) (l : list (K * B)) : list (K * B) :=
    match l with [] => [] | (e, b) :: l' => if mem e known then news known l' else (e, b) :: news (known ++ [e]) l' end.
  Fixpoint index_of (e : K) (l : list K) : nat := match l with [] => 0 | x :: l' => if eqk x e then 0 else S (index_of e l') end.
  (** [nids] are the last ones of [es], in order *)
  Definition in_place (es nids : list K) : bool := list_eqb eqk (filter (fun e => negb (mem e nids)) es ++ nids) es.
  Section Run.
    Variables (V : Type) (bsem : box -> list V -> list V) (merge : list V -> V).
    (** a sentence reads the values of the entities it mentions, in the order of its slots, and writes them back; an entity that fills several slots gets the merged value, the others keep theirs *)
    Definition gather (es : list K) (vs : list V) (nids : list K) : list V := List.concat (map (fun e => firstn 1 (skipn (index_of e es) vs)) nids).
    Definition scatter (es : list K) (vs : list V) (nids : list K) (outs : list V) : list V :=
      map (fun '(e, v) => match map snd (filter (fun p => eqk (fst p) e) (combine nids outs)) with [] => v | xs => merge xs end) (combine es vs).
    (** the part [x] of a word acts on the values of its own entities *)
    Definition stir (es : list K) (vs : list V) (x : diagram * list K) : list V := scatter es vs (snd x) (drun bsem (fst x) (gather es vs (snd x))).
    Definition sentence_run (st : list K * list V) (x : diagram * list box * list K) : list K * list V :=
      let '(es, vs) := st in let '(sd, nouns, nids) := x in
      let fresh := news es (combine nids nouns) in
      let es' := es ++ map fst fresh in let vs' := vs ++ List.concat (map (fun p => bsem (snd p) []) fresh) in
      (es', stir es' vs' (sd, nids)).
    Definition text_run (xs : list (diagram * list box * list K)) : list K * list V := fold_left sentence_run xs ([], []).
  End Run.
  (** the entities of a text in the order of their first mentions, each with the box of that mention *)
  Definition entities (xs : list (diagram * list box * list K)) : list (K * box) :=
    fold_left (fun es x => let '(_, nouns, nids) := x in es ++ news (map fst es) (combine nids nouns)) xs [].
  (** the sentence diagrams fit their slots *)
  Definition fits (x : diagram * list box * list K) : Prop :=
    let '(sd, nouns, nids) := x in typed sd (repeat a_n (List.length nids)) (repeat a_n (List.length nids)) /\ List.length nouns = List.length nids /\ forall b, In b nouns -> exists w, b = Box w [] [a_n] 0.
End Text.

(** ** Sandwiches: what a word does to the values of its entities *)
Section Sandwich.
  Notation ident := (option Z). Notation same := opt_eqb.
  (** what the parts of a word come to: a diagram, noun boxes, identifiers, a candidate noun *)
  Definition result := (diagram * list box * list ident * ident)%type.
  Fixpoint joined_slots (es : list (ident * box)) (rs : list result) : list (ident * box) :=
    match rs with [] => es | (_, ns, ids, _) :: rs' => joined_slots (es ++ news same (map fst es) (combine ids ns)) rs' end.
  (** parts that do nothing and find their entities in place are not shown *)
  Fixpoint shown_parts (es : list (ident * box)) (rs : list result) : list (diagram * list ident) :=
    match rs with
    | [] => []
    | (d, ns, ids, _) :: rs' =>
        let es' := es ++ news same (map fst es) (combine ids ns) in
        (match layers d with [] => if in_place same (map fst es') ids then [] else [(d, ids)] | _ => [(d, ids)] end) ++ shown_parts es' rs'
    end.
  Definition nouns_ty (k : nat) : ty := repeat a_n k.
  Open Scope string_scope.
  Definition suffixes (fol : bool) (m : nat) : list string := if fol then (map (fun i => ("$_{" ++ NilEmpty.string_of_uint (Nat.to_uint i) ++ "}$")%string) (seq 1 (m - 1)) ++ ["$_{bottom}$"])%list else repeat "" m.
  (** the word acts on all its entities, then after each part again *)
  Definition sandwich_run V (bsem : box -> list V -> list V) (merge : list V -> V) (w : string) (fol : bool) (es : list ident) (ps : list (diagram * list ident)) (vs : list V) : list V :=
    let big sfx := bsem (Box (w ++ sfx) (nouns_ty (List.length es)) (nouns_ty (List.length es)) 0) in
    fold_left (fun v '(sfx, x) => big sfx (stir same bsem merge es v x)) (combine (suffixes fol (List.length ps)) ps) (big (match ps with [] => "" | _ => if fol then "$_{top}$" else "" end) vs).
  Close Scope string_scope.
  (** the results of the parts, from left to right: each gets the identifier of the noun last seen on this level *)
  Inductive parts (rec : node -> ident -> res result) : ident -> list node -> list result -> ident -> Prop :=
  | parts_nil c : parts rec c [] [] c
  | parts_cons c n ns r rs c' : rec n c = Ok r -> parts rec (if ty_eqb (n_typ n) [a_n] then snd r else c) ns rs c' -> parts rec c (n :: ns) (r :: rs) c'.
End Sandwich.

(** ** Pruning *)
(** the first token of the text that is the word [w] *)
Definition first_occurrence (sentences : list (list string)) (w : string) (a b : nat) : Prop :=
  (exists s, nth_error sentences a = Some s /\ nth_error s b = Some w /\ forall k, k < b -> nth_error s k <> Some w) /\ forall k s, k < a -> nth_error sentences k = Some s -> ~ In w s.
(** token [j] of sentence [i] is pruned because of the word [w]: it is its first occurrence, or the first mention in another sentence of what the first cluster containing that occurrence is about *)
Definition pruned_by (sentences : list (list string)) (corefs : list (list (list nat))) (w : string) (i j : nat) : Prop :=
  exists a b, first_occurrence sentences w a b /\
    ((i, j) = (a, b) \/ exists pre c post more, corefs = pre ++ c :: post /\ mentions c (a, b) /\ (forall p, In p pre -> ~ mentions p (a, b)) /\ i <> a /\ nth_error c i = Some (j :: more)).

(** ** Texts: what the parts of a circuit are *)
(** the entity of the mention [m]: the first mention in the first cluster that contains [m] *)
Definition refers (corefs : list (list (list nat))) (m r : nat * nat) : Prop := exists pre c post, corefs = pre ++ c :: post /\ mentions c m /\ (forall p, In p pre -> ~ mentions p m) /\ first_mention c r.
(** the entity of token [z] of sentence [i]: itself if it is in no cluster *)
Definition entity_of (corefs : list (list (list nat))) (i : nat) (z : Z) (e : nat * option Z) : Prop :=
  (exists j r, z = Z.of_nat j /\ refers corefs (i, j) r /\ e = (fst r, Some (Z.of_nat (snd r)))) \/
  ((forall j c, z = Z.of_nat j -> In c corefs -> ~ mentions c (i, j)) /\ e = (i, Some z)).
Definition word_at (sentences : list (list string)) (m : nat * nat) (w : string) : Prop := exists s, nth_error sentences (fst m) = Some s /\ nth_error s (snd m) = Some w.
(** an entity with fewer than [min] mentions *)
Definition rare (corefs : list (list (list nat))) (min : Z) (r : nat * nat) : Prop :=
  exists ms, NoDup ms /\ ms <> [] /\ (forall m, In m ms <-> refers corefs m r) /\ (Z.of_nat (List.length ms) < min)%Z.
(** the words whose first occurrence is pruned: those listed, and the words at the first mentions of rare entities *)
Definition dropped (sentences : list (list string)) (corefs : list (list (list nat))) (ws : list string) (min : Z) (w : string) : Prop := In w ws \/ exists r, rare corefs min r /\ word_at sentences r w.

(** the tree of a sentence: the parse, completed and rewritten, its words at their positions in the sentence (if the words of the parse are found there in order; increasing positions in any case) *)
Definition sentence_tree (rewritten : node -> node) (s : list string) (parsed t : node) : Prop :=
  exists c ws is js f, completed s parsed c /\ indices is c /\ ws = map (fun i => hd EmptyString (map n_word (at_index i c))) is /\
    List.length js = List.length is /\ StronglySorted lt js /\ (kept (fun _ => True) s ws -> aligned s ws js) /\
    (forall k i j, nth_error is k = Some i -> nth_error js k = Some j -> f i = Z.of_nat j) /\ erase t = relabel f (rewritten c).
(** frames: a slot for each noun that is not pruned; a box or frame for each word that is neither a bare noun nor floating *)
Definition frames_part (corefs : list (list (list nat))) (pruned : list Z) (i : nat) (t : node) (x : diagram * list box * list (nat * option Z)) : Prop :=
  let '(d, nouns, ids) := x in nouns = map noun_box (noun_slots pruned t) /\ Forall2 (fun m e => entity_of corefs i (n_ind m) e) (noun_slots pruned t) ids /\ diagram_words d = shown pruned t.
(** sandwiches: a slot for each word position of a noun that is not pruned, in the order of these nouns; an unnamed slot besides only if nothing is pruned *)
Definition sandwich_part (corefs : list (list (list nat))) (pruned : list Z) (i : nat) (t : node) (x : diagram * list box * list (nat * option Z)) : Prop :=
  let '(d, nouns, ids) := x in exists zs, List.length zs = List.length nouns /\ NoDup zs /\
    filter (fun p => match fst p with Some _ => true | None => false end) (combine zs nouns) = news opt_eqb [] (map (fun m => (Some (n_ind m), noun_box m)) (noun_slots pruned t)) /\
    Forall2 (fun z e => match z with Some z => entity_of corefs i z e | None => e = (i, None) end) zs ids /\
    (forall b, In (None, b) (combine zs nouns) -> pruned = [] /\ b = Box EmptyString [] [a_n] 0).
(** the slot a word with noun arguments starts with: the noun last seen, or, if there is none and nothing is pruned, an unnamed one *)
Definition first_slot (pruned : list Z) (t : ty) (prev : option Z) : list (option Z * box) :=
  if existsb (fun a : atom => (fst a =? "n")%string && (Z.abs (snd a) =? 1)%Z) t && (match prev, pruned with None, _ :: _ => false | _, _ => true end) then [(prev, Box EmptyString [] [a_n] 0)] else [].
