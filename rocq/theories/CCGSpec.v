(** Specification vocabulary for CCG types, rules and trees, independent of the
    modelled functions (it only uses the data types). *)
From Verif Require Import PyBase TyModel DiagModel DiagSpec DiagKinds CCGModel.
Set Implicit Arguments.

(** ** The documented grammar of category strings (ccg_type.py 268-280) *)
Definition plain (c : ascii) : Prop :=
  c <> "("%char /\ c <> ")"%char /\ c <> "/"%char /\ c <> "\"%char.

Inductive bracket_cat (m : string -> string) : list ascii -> cty -> Prop :=
| BAtom s : s <> [] -> Forall plain s -> bracket_cat m s (CAtom (m (string_of_list_ascii s)))
| BParen s t : cat_str m s t -> bracket_cat m ("("%char :: s ++ [")"%char]) t
with cat_str (m : string -> string) : list ascii -> cty -> Prop :=
| CSingle s t : bracket_cat m s t -> cat_str m s t
| COp s1 t1 d s2 t2 : bracket_cat m s1 t1 -> bracket_cat m s2 t2 ->
    cat_str m (s1 ++ dir_char d :: s2) (CSlash t1 d t2).

(** A whole category string and the type it denotes; C[conj] denotes C\C. *)
Definition documented (m : string -> string) (cat : list ascii) (t : cty) : Prop :=
  (exists s t0, cat = s ++ CONJ_TAG /\ cat_str m s t0 /\ t = CSlash t0 Under t0) \/
  ((forall s, cat <> s ++ CONJ_TAG) /\ cat_str m cat t).

(** Types whose atomic names are usable in a category string. *)
Definition good_name (n : string) : Prop :=
  n <> ""%string /\ Forall plain (list_ascii_of_string n) /\
  (forall s, list_ascii_of_string n <> s ++ CONJ_TAG).
Fixpoint good (t : cty) : Prop :=
  match t with
  | CEmpty => False
  | CAtom n => good_name n
  | CSlash r _ a => good r /\ good a
  end.

(** No empty type inside. *)
Fixpoint proper (t : cty) : Prop :=
  match t with CEmpty => False | CAtom _ => True | CSlash r _ a => proper r /\ proper a end.

(** ** Positions in a type *)
(** [true] goes to the result, [false] to the argument. *)
Fixpoint at_path (t : cty) (p : list bool) {struct p} : option cty :=
  match p with
  | [] => Some t
  | b :: p' => match t with CSlash r _ a => at_path (if b then r else a) p' | _ => None end
  end.
(** same top constructor (and name or direction) *)
Definition same_head (a b : cty) : Prop :=
  match a, b with
  | CEmpty, CEmpty => True
  | CAtom m, CAtom n => m = n
  | CSlash _ d _, CSlash _ d' _ => d = d'
  | _, _ => False
  end.
(** [o] is a node of [t] *)
Definition occurs (o t : cty) : Prop := exists p, at_path t p = Some o.

(** The result spine: [fill [(d1,y1); ..; (dn,yn)] x] is [((x dn yn) .. ) d1 y1]. *)
Fixpoint fill (ctx : list (dir * cty)) (x : cty) : cty :=
  match ctx with [] => x | (d, y) :: ctx' => CSlash (fill ctx' x) d y end.

(** Does a slash pass a direction check character? *)
Definition allows (c : ascii) (d : dir) : Prop := c = "|"%char \/ c = dir_char d.
(** A non-empty spine whose innermost slash passes [c0] and the others pass [c1]. *)
Definition admissible (c0 c1 : ascii) (ctx : list (dir * cty)) : Prop :=
  exists pre d y, ctx = pre ++ [(d, y)] /\ allows c0 d /\ Forall (fun p => allows c1 (fst p)) pre.

(** ** The CCG rule schemata *)
Notation "X // Y" := (CSlash X Over Y) (at level 40, left associativity).
Notation "X \\ Y" := (CSlash X Under Y) (at level 40, left associativity).
Definition all_over (ctx : list (dir * cty)) : Prop := Forall (fun p => fst p = Over) ctx.
Definition all_under (ctx : list (dir * cty)) : Prop := Forall (fun p => fst p = Under) ctx.

Inductive instance : rule -> list cty -> cty -> Prop :=
| I_FA X Y : instance FA [X // Y; Y] X
| I_BA X Y : instance BA [Y; X \\ Y] X
| I_FC X Y Z : instance FC [X // Y; Y // Z] (X // Z)
| I_BC X Y Z : instance BC [Y \\ Z; X \\ Y] (X \\ Z)
| I_FX X Y Z : instance FX [X // Y; Y \\ Z] (X \\ Z)
| I_BX X Y Z : instance BX [Y // Z; X \\ Y] (X // Z)
| I_GFC X Y ctx : ctx <> [] -> all_over ctx -> instance GFC [X // Y; fill ctx Y] (fill ctx X)
| I_GBC X Y ctx : ctx <> [] -> all_under ctx -> instance GBC [fill ctx Y; X \\ Y] (fill ctx X)
| I_GFX X Y pre Z : instance GFX [X // Y; fill (pre ++ [(Under, Z)]) Y] (fill (pre ++ [(Under, Z)]) X)
| I_GBX X Y pre Z : instance GBX [fill (pre ++ [(Over, Z)]) Y; X \\ Y] (fill (pre ++ [(Over, Z)]) X)
| I_FTR X T : instance FTR [X] (T // (T \\ X))
| I_BTR X T : instance BTR [X] (T \\ (T // X)).

(** The pregroup type of a sequence of CCG types. *)
Definition dom_type (dm : list cty) : ty := List.concat (map to_grammar dm).

(** the rules with a schema, and those that cross *)
Definition schematic (r : rule) : bool :=
  match r with FA | BA | FC | BC | FX | BX | GFC | GBC | GFX | GBX | FTR | BTR => true | _ => false end.
Definition crossed (r : rule) : bool :=
  match r with FX | BX | GFX | GBX => true | _ => false end.

(** the shape of codomain a rule's conclusion has (no constraint for the others) *)
Definition conclusion_shape (ru : rule) (cd : cty) : Prop :=
  match ru with
  | FC | BX => exists a b, cd = a // b
  | BC | FX => exists a b, cd = a \\ b
  | FTR => exists t x, cd = t // (t \\ x)
  | BTR => exists t x, cd = t \\ (t // x)
  | _ => True
  end.
(** [below o ctx u]: the position under [ctx] lies strictly below an occurrence of [o] *)
Definition below (o : cty) (ctx : list (dir * cty)) (u : cty) : Prop :=
  exists a b, ctx = a ++ b /\ a <> [] /\ b <> [] /\ fill b u = o.
(** ** Derivations *)
(** A leaf consumed as punctuation. *)
Definition punct_leaf (x : ctree) : Prop := exists s, x = CT s LEXICAL PUNCTUATION [].

(** Trees all of whose nodes are instances of the CCG rules, over types without
    the empty type; unary nodes do not change the type; a conjunction is a single
    word coordinated with one neighbour; punctuation is absorbed by its neighbour. *)
Inductive deriv : ctree -> Prop :=
| D_leaf s t : proper t -> t <> PUNCTUATION -> deriv (CT s LEXICAL t [])
| D_rule s ru t cs : instance ru (map t_type cs) t -> proper t -> Forall deriv cs -> deriv (CT s ru t cs)
| D_LP s p x : punct_leaf p -> deriv x -> deriv (CT s LP (t_type x) [p; x])
| D_RP s p x : punct_leaf p -> deriv x -> deriv (CT s RP (t_type x) [x; p])
| D_unary s x : deriv x -> deriv (CT s UNARY (t_type x) [x])
| D_conj_l s w c t x : w <> ""%string -> c = CONJUNCTION \/ c = PUNCTUATION -> proper t -> deriv x ->
    deriv (CT s CONJ t [CT (Some w) LEXICAL c []; x])
| D_conj_r s w c t x : w <> ""%string -> c = CONJUNCTION \/ c = PUNCTUATION -> proper t -> deriv x ->
    t_type x <> CONJUNCTION -> t_type x <> PUNCTUATION ->
    deriv (CT s CONJ t [x; CT (Some w) LEXICAL c []]).

(** The words of the sentence that remain after punctuation has been absorbed. *)
Fixpoint sentence (x : ctree) : list string :=
  match x with
  | CT _ LEXICAL _ _ => [t_text x]
  | CT _ LP _ [_; r] => sentence r
  | CT _ RP _ [l; _] => sentence l
  | CT _ _ _ cs => List.concat (map sentence cs)
  end.
(** The names of the word boxes of a diagram, in layer order. *)
Definition word_names (d : diagram) : list string :=
  flat_map (fun b => match b with Word n _ _ => [n] | _ => [] end) (boxes d).

(** In every generalised crossed composition the child that is opened up is a word. *)
Fixpoint gx_leaf (x : ctree) : Prop :=
  let 'CT _ ru _ cs := x in
  match ru, cs with
  | GBX, CT _ r _ _ :: _ => r = LEXICAL
  | GFX, [_; CT _ r _ _] => r = LEXICAL
  | _, _ => True
  end /\ fold_right and True (map gx_leaf cs).

(** ** Trees *)
(** Trees made by calling the constructor. *)
Inductive built : ctree -> Prop :=
| Built s r t cs x : Forall built cs -> mk_tree s r t cs = Ok x -> built x.
(** A condition on the type of every node. *)
Inductive all_types (P : cty -> Prop) : ctree -> Prop :=
| AllT s r t cs : P t -> Forall (all_types P) cs -> all_types P (CT s r t cs).
(** Renaming atomic types; the tree with all its types renamed. *)
Fixpoint rename (f : string -> string) (t : cty) : cty :=
  match t with CEmpty => CEmpty | CAtom n => CAtom (f n) | CSlash r d a => CSlash (rename f r) d (rename f a) end.
Fixpoint retype (f : string -> string) (x : ctree) : ctree :=
  let 'CT s r t cs := x in CT s r (rename f t) (map (retype f) cs).
Definition np_to_n (n : string) : string := if String.eqb n "np" then "n"%string else n.

(** ** Trees whose unary nodes may change the type *)
(** Both types are complex and their slashes point in different directions. *)
Definition turned (a b : cty) : Prop := exists r d x r' d' x', a = CSlash r d x /\ b = CSlash r' d' x' /\ d <> d'.
(** [takes x o]: every node of [x] is an instance of its rule once [x] is given the type [o]: a new type is handed down
    from a unary node to the heads below it, down to words, which take it; a conjunction takes the type its neighbour demands. *)
Inductive takes : ctree -> cty -> Prop :=
| T_leaf s t : proper t -> t <> PUNCTUATION -> takes (CT s LEXICAL t []) t
| T_word w t o : w <> ""%string -> proper o -> o <> PUNCTUATION -> takes (CT (Some w) LEXICAL t []) o
| T_rule s ru t cs : instance ru (map t_type cs) t -> proper t -> Forall2 takes cs (map t_type cs) -> takes (CT s ru t cs) t
| T_fa s t a b o : takes a (o // t_type b) -> takes b (t_type b) -> takes (CT s FA t [a; b]) o
| T_ba s t a b o : takes a (t_type a) -> takes b (o \\ t_type a) -> takes (CT s BA t [a; b]) o
| T_fc s t a b X Y Z X' Z' : t_rule a <> FTR -> t_type a = X // Y -> t_type b = Y // Z -> takes a (X' // Y) -> takes b (Y // Z') -> takes (CT s FC t [a; b]) (X' // Z')
| T_bc s t a b X Y Z X' Z' : t_type a = Y \\ Z -> t_type b = X \\ Y -> takes a (Y \\ Z') -> takes b (X' \\ Y) -> takes (CT s BC t [a; b]) (X' \\ Z')
| T_fx s t a b X Y Z X' Z' : t_type a = X // Y -> t_type b = Y \\ Z -> takes a (X' // Y) -> takes b (Y \\ Z') -> takes (CT s FX t [a; b]) (X' \\ Z')
| T_bx s t a b X Y Z X' Z' : t_type a = Y // Z -> t_type b = X \\ Y -> takes a (Y // Z') -> takes b (X' \\ Y) -> takes (CT s BX t [a; b]) (X' // Z')
| T_lp s t p x o : punct_leaf p -> takes x o -> takes (CT s LP t [p; x]) o
| T_rp s t p x o : punct_leaf p -> takes x o -> takes (CT s RP t [x; p]) o
| T_unary s t x o : ~ turned o (t_type x) -> takes x o -> takes (CT s UNARY t [x]) o
| T_conj_l s t c x o : t_type c = CONJUNCTION \/ t_type c = PUNCTUATION -> takes c (o // t_type x) -> takes x (t_type x) -> takes (CT s CONJ t [c; x]) o
| T_conj_r s t c x o : t_type c = CONJUNCTION \/ t_type c = PUNCTUATION -> t_type x <> CONJUNCTION -> t_type x <> PUNCTUATION ->
    takes x (t_type x) -> takes c (o \\ t_type x) -> takes (CT s CONJ t [x; c]) o.
(** Parses: trees that fit their own types. *)
Definition parse_tree (x : ctree) : Prop := takes x (t_type x) /\ all_types proper x.

Inductive subtree (y : ctree) : ctree -> Prop :=
| Sub_here : subtree y y
| Sub_child s r t cs c : In c cs -> subtree y c -> subtree y (CT s r t cs).
(** a unary node with the type of its child *)
Definition trivial_unary (x : ctree) : Prop := exists s c, x = CT s UNARY (t_type c) [c].
(** the childless nodes, from left to right *)
Fixpoint leaves (x : ctree) : list ctree :=
  let 'CT _ _ _ cs := x in match cs with [] => [x] | _ => List.concat (map leaves cs) end.
(** deleting some trivial unary nodes *)
Inductive pruned : ctree -> ctree -> Prop :=
| Pr_node s r t cs ds : Forall2 pruned cs ds -> pruned (CT s r t cs) (CT s r t ds)
| Pr_drop s c d : pruned c d -> pruned (CT s UNARY (t_type c) [c]) d.

(** boxes allowed in a sentence diagram; in a planar one *)
Definition is_plain_box (b : box) : Prop := is_word b \/ is_structural b.

Definition noswap (b : box) : Prop := is_word b \/ is_cupcap b.
