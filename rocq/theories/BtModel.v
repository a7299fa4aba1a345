(** Model of [BobcatParser._to_biclosed] and [BobcatParser._build_ccgtree]: lambeq/text2diagram/model_based_reader/bobcat_parser.py 281-318, with [ParseTree.word], [variable] and [is_leaf] (lambeq/bobcat/tree.py 239-255).
    Simplification: the metadata of the CCGTree are left out. *)
From Coq Require Import Ascii.
From Verif Require Import PyBase CCGModel BobModel.
Open Scope string_scope. Set Implicit Arguments. Unset Strict Implicit.

(** ccg_type.py 565-566 *)
Definition SENTENCE := CAtom "s".
Definition PREPOSITIONAL_PHRASE := CAtom "p".
(** lexicon.py 28-39: [str(atom)] *)
Definition atom_name (a : atomk) : string :=
  match a with ANone => "" | AN => "N" | ANP => "NP" | AS => "S" | APP => "PP" | AConj => "conj" | AComma => "," | ASemi => ";" | AColon => ":" | APeriod => "." | ALqu => "LQU" | ARqu => "RQU" | ALrb => "LRB" | ARrb => "RRB" end.
(** bobcat_parser.py 281-303; a direction other than the two slashes cannot be represented in [cty] and is an error here *)
Fixpoint to_biclosed (c : cat) : res cty :=
  match c with
  | At a _ _ _ =>
      if is_punct a then Ok PUNCTUATION
      else let atom := atom_name a in
           if (atom =? "N")%string then Ok NOUN
           else if (atom =? "NP")%string then Ok NOUN_PHRASE
           else if (atom =? "S")%string then Ok SENTENCE
           else if (atom =? "PP")%string then Ok PREPOSITIONAL_PHRASE
           else if (atom =? "conj")%string then Ok CONJUNCTION
           else Err ValueError
  | Sl d r x _ _ _ =>
      do result <- to_biclosed r; do argument <- to_biclosed x;
      if Ascii.eqb d "/" then Ok (c_slash result Over argument) else if Ascii.eqb d "\" then Ok (c_slash result Under argument) else Err OtherError
  end.
(** tree.py 207-225: [rule.name] *)
Definition prule_name (r : prule) : string :=
  match r with RNone => "NONE" | RL => "L" | RU => "U" | RBA => "BA" | RFA => "FA" | RBC => "BC" | RFC => "FC" | RBX => "BX" | RGBC => "GBC" | RGFC => "GFC" | RGBX => "GBX" | RLP => "LP" | RRP => "RP" | RBTR => "BTR" | RFTR => "FTR" | RCONJ => "CONJ" | RADJ => "ADJ_CONJ" end.
(** tree.py 246-255 *)
Definition p_leaf (t : ptree) : bool := Nat.eqb (prule_n (p_rule t)) (prule_n RL).
(** tree.py 239-244, 248-251, 109-110: the word of a leaf *)
Definition p_word (t : ptree) : res string :=
  if p_leaf t then match p_vars t (c_var (p_cat t)) with None => Err AttributeError | Some ([], _) => Err IndexError | Some (w :: _, _) => Ok w end else Err AttributeError.
(** bobcat_parser.py 305-318 *)
Fixpoint build_ccgtree (t : ptree) : res ctree :=
  let 'PT ru c l r vm := t in
  do a <- match l with None => Ok [] | Some x => do y <- build_ccgtree x; Ok [y] end;
  do b <- match r with None => Ok [] | Some x => do y <- build_ccgtree x; Ok [y] end;
  let rule := if (prule_name ru =? "ADJ_CONJ")%string then FA else rule_of_value (prule_name ru) in
  do text <- (if p_leaf t then do w <- p_word t; Ok (Some w) else Ok None);
  do ty <- to_biclosed c;
  mk_tree text rule ty (a ++ b).
