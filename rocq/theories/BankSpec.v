(** The format of CCGBank derivations, independently of the parser. *)
From Coq Require Import Ascii.
From Verif Require Import PyBase CCGModel CCGSpec ReaderModel BankModel.
Open Scope string_scope. Set Implicit Arguments. Unset Strict Implicit.
(** a derivation as written: the fields of a leaf; category, head, number of children as written, and children of an inner node *)
Inductive btree :=
| BLeaf (cat mod_pos orig_pos word pred_arg : chars)
| BNode (cat : chars) (head : bool) (count : chars) (children : list btree).
Definition is_ws (w : chars) : Prop := w <> [] /\ Forall (fun c => is_space c = true) w.
Definition is_field (w : chars) : Prop := w <> [] /\ Forall (fun c => is_space c = false) w.
Definition digits (w : chars) : Prop := w <> [] /\ Forall (fun c => is_digit c = true) w.
Definition opt_ws (w : chars) : Prop := Forall (fun c => is_space c = true) w.
Definition no_lead (s : chars) : Prop := match s with c :: _ => is_space c = false | [] => True end.
(** [reads strict b s r]: the text [s] starts with a rendering of [b], followed by [r].
    Strict: a leaf is followed by white space unless the text ends, the bracket that closes a node is followed by one white space character unless the text ends,
    and all white space belongs to the rendering. Not strict: any character (or the end) may follow the bracket, and a leaf may be followed by anything. *)
Inductive reads (strict : bool) : btree -> chars -> chars -> Prop :=
| R_leaf w1 w2 w3 w4 w5 w6 cat mp op word pa r :
    is_ws w1 -> is_ws w2 -> is_ws w3 -> is_ws w4 -> is_ws w5 -> opt_ws w6 -> is_field cat -> is_field mp -> is_field op -> is_field word -> is_field pa -> no_lead r ->
    (strict = true -> w6 <> [] \/ r = []) ->
    reads strict (BLeaf cat mp op word pa) (str "(<L" ++ w1 ++ cat ++ w2 ++ mp ++ w3 ++ op ++ w4 ++ word ++ w5 ++ pa ++ str ">)" ++ w6 ++ r)%list r
| R_node w1 w2 w3 w4 cat h n bs s c r :
    is_ws w1 -> is_ws w2 -> is_ws w3 -> opt_ws w4 -> is_field cat -> digits n -> no_lead s ->
    reads_list strict bs s (")"%char :: c ++ r)%list ->
    (List.length c <= 1)%nat -> (c = [] -> r = []) -> (strict = true -> opt_ws c) ->
    reads strict (BNode cat h n bs) (str "(<T" ++ w1 ++ cat ++ w2 ++ (if h then "1" else "0")%char :: w3 ++ n ++ str ">" ++ w4 ++ s)%list r
with reads_list (strict : bool) : list btree -> chars -> chars -> Prop :=
| R_nil s : reads_list strict [] s s
| R_cons b bs s s' r : reads strict b s s' -> reads_list strict bs s' r -> reads_list strict (b :: bs) s r.
(** atomic categories *)
Inductive feature : chars -> Prop := F_none : feature [] | F_some l : l <> [] -> Forall (fun c => is_lower c = true) l -> feature ("["%char :: l ++ ["]"%char])%list.
Inductive atomic : string -> string -> Prop :=
| A_base b n f : In (b, n) [("N", "n"); ("NP", "np"); ("S", "s"); ("PP", "p")] -> feature (str f) -> atomic (b ++ f) n
| A_conj : atomic "conj" "conj"
| A_punc p : In p ["LRB"; "RRB"; ","; "."; ":"; ";"] -> atomic p "punc".
Inductive renamed : cty -> cty -> Prop :=
| Re_atom a b : atomic a b -> renamed (CAtom a) (CAtom b)
| Re_slash r d a r' a' : renamed r r' -> renamed a a' -> renamed (CSlash r d a) (CSlash r' d a').
(** the category a field stands for: the documented grammar (C21) with CCGBank's atoms, and the one corrected typo *)
Inductive category : chars -> cty -> Prop :=
| Cat s t t' : s <> str "((S[b]\NP)/NP)/" -> documented (fun a => a) s t -> renamed t t' -> category s t'
| Cat_typo t t' : documented (fun a => a) (str "(S[b]\NP)/NP") t -> renamed t t' -> category (str "((S[b]\NP)/NP)/") t'.
Inductive plain_word : string -> string -> Prop :=
| PW_esc e p : In (e, p) [("-LCB-", "{"); ("-RCB-", "}"); ("-LRB-", "("); ("-RRB-", ")")] -> plain_word e p
| PW_same w : ~ In w ["-LCB-"; "-RCB-"; "-LRB-"; "-RRB-"] -> plain_word w w.
(** the tree a derivation denotes: words unescaped, categories mapped, the rule of a node inferred from the categories; nodes have one or two children
    unless no rule is recognised *)
Inductive denotes : btree -> ctree -> Prop :=
| De_leaf cat mp op word pa t w : category cat t -> plain_word (string_of_list_ascii word) w -> denotes (BLeaf cat mp op word pa) (CT (Some w) LEXICAL t [])
| De_node cat h n bs xs t ru : category cat t -> Forall2 denotes bs xs -> infer_rule (map t_type xs) t = Ok ru ->
    ru = UNKNOWN \/ List.length xs = required_children ru -> denotes (BNode cat h n bs) (CT None ru t xs).
(** a whole line *)
Definition derivation (s : string) (b : btree) : Prop := reads true b (str s) [].
(** ** files *)
(** a line "ID=<id> ..." *)
Definition id_line (l i : string) : Prop := exists r, str l = (str "ID=" ++ str i ++ r)%list /\ is_field (str i) /\ match r with c :: _ => is_space c = true | [] => True end.
(** an entry: the line with the identifier, the identifier, the line with the derivation; [result] is what the derivation yields on its own *)
Notation entry := (string * string * string)%type.
Definition entry_ok (e : entry) : Prop := let '(l, i, _) := e in id_line l i.
Definition lines_of (e : entry) : list string := let '(l, _, t) := e in [l; t].
Definition result (e : entry) : string * option ctree := let '(_, i, t) := e in (i, match sentence2tree false (strip t) with Ok x => x | Err _ => None end).
(** the entries before the first that yields no tree *)
Fixpoint before_failure (l : list (string * option ctree)) : list (string * option ctree) := match l with (i, Some x) :: l' => (i, Some x) :: before_failure l' | _ => [] end.
Definition some_failure (l : list (string * option ctree)) : bool := existsb (fun p => match snd p with None => true | _ => false end) l.
