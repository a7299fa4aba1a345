(** Specification of the trees BobcatParser returns (C86). *)
From Coq Require Import Ascii.
From Verif Require Import PyBase CCGModel CCGSpec.
From Verif Require Import BobModel BobSpec ChModel ChSpec.
Open Scope string_scope. Set Implicit Arguments. Unset Strict Implicit.

(** The CCG type of a category: features and variables are forgotten, all punctuation is one type. *)
Definition atom_type (a : atomk) : cty :=
  match a with ANone => CEmpty | AN => CAtom "n" | ANP => CAtom "np" | AS => CAtom "s" | APP => CAtom "p" | AConj => CAtom "conj" | _ => CAtom "punc" end.
Fixpoint skel_type (k : skel) : cty := match k with KA a => atom_type a | KS d r x => CSlash (skel_type r) (if Ascii.eqb d "/" then Over else Under) (skel_type x) end.
Definition cat_type (c : cat) : cty := skel_type (skeleton c).
(** The CCG rule of a parser rule; the coordination of adjectives becomes an application. *)
Definition ccg_rule (r : prule) : rule :=
  match r with RNone => UNKNOWN | RL => LEXICAL | RU => UNARY | RBA => BA | RFA => FA | RBC => CCGModel.BC | RFC => CCGModel.FC | RBX => CCGModel.BX | RGBC => GBC | RGFC => GFC | RGBX => GBX | RLP => LP | RRP => RP | RBTR => BTR | RFTR => FTR | RCONJ => CONJ | RADJ => FA end.
Section Image.
  Variable S : Type.
  (** the tree with the same shape, the same words, the types and the rules above *)
  Fixpoint image (t : stree S) : ctree :=
    match t with
    | TLeaf x w _ _ => CT (Some w) LEXICAL (cat_type (p_cat x)) []
    | TUn x c _ => CT None (ccg_rule (p_rule x)) (cat_type (p_cat x)) [image c]
    | TBin x l r _ => CT None (ccg_rule (p_rule x)) (cat_type (p_cat x)) [image l; image r]
    end.
  (** the words of a tree, all of them, and without the punctuation absorbed by a neighbour *)
  Fixpoint tree_words (t : stree S) : list string := match t with TLeaf _ w _ _ => [w] | TUn _ c _ => tree_words c | TBin _ l r _ => (tree_words l ++ tree_words r)%list end.
  Fixpoint spoken (t : stree S) : list string :=
    match t with
    | TLeaf _ w _ _ => [w]
    | TUn _ c _ => spoken c
    | TBin x l r _ => match p_rule x with RLP => spoken r | RRP => spoken l | _ => (spoken l ++ spoken r)%list end
    end.
  (** a punctuation mark; a conjunction, or a comma or semicolon used as one, possibly with punctuation around it *)
  Definition mark (t : stree S) : Prop := exists x w i sc, t = TLeaf x w i sc /\ punctuation (p_cat x).
  Inductive conj_word : stree S -> Prop :=
  | cw_leaf x w i sc : w <> "" -> conj_word (TLeaf x w i sc)
  | cw_lp x l r sc : p_rule x = RLP -> mark l -> conj_word r -> conj_word (TBin x l r sc)
  | cw_rp x l r sc : p_rule x = RRP -> mark r -> conj_word l -> conj_word (TBin x l r sc).
  (** constituents whose head is a word that they are applied around: they can take over any type *)
  Inductive headed : stree S -> Prop :=
  | hd_leaf x w i sc : headed (TLeaf x w i sc)
  | hd_fa x l r sc : p_rule x = RFA -> headed l -> headed (TBin x l r sc)
  | hd_ba x l r sc : p_rule x = RBA -> headed r -> headed (TBin x l r sc)
  | hd_lp x l r sc : p_rule x = RLP -> headed r -> headed (TBin x l r sc)
  | hd_rp x l r sc : p_rule x = RRP -> headed l -> headed (TBin x l r sc).
  (** Parses that have a diagram: punctuation is absorbed without changing the type, generalised backward composition composes modifiers Y\Y,
      types are changed above heads, and not by turning the slash around. *)
  Inductive regular : stree S -> Prop :=
  | rg_leaf x w i sc : w <> "" -> ~ punctuation (p_cat x) -> regular (TLeaf x w i sc)
  | rg_rule x l r sc : In (p_rule x) [RFA; RBA; RFC; RBC; RBX; RGFC; RGBX] -> regular l -> regular r -> regular (TBin x l r sc)
  | rg_gbc x l r sc Y Z W : p_rule x = RGBC -> skeleton (t_cat l) = KS "\" (KS "\" Y Z) W -> skeleton (t_cat r) = KS "\" Y Y -> regular l -> regular r -> regular (TBin x l r sc)
  | rg_lp x l r sc : p_rule x = RLP -> mark l -> skeleton (p_cat x) = skeleton (t_cat r) -> regular r -> regular (TBin x l r sc)
  | rg_rp x l r sc : p_rule x = RRP -> mark r -> skeleton (p_cat x) = skeleton (t_cat l) -> regular l -> regular (TBin x l r sc)
  | rg_conj x l r sc : In (p_rule x) [RCONJ; RADJ] -> conj_word l -> regular r -> regular (TBin x l r sc)
  | rg_raise x c sc : In (p_rule x) [RFTR; RBTR] -> regular c -> regular (TUn x c sc)
  | rg_change x c sc : p_rule x = RU -> ~ punctuation (p_cat x) -> headed c -> ~ turned (cat_type (p_cat x)) (cat_type (t_cat c)) -> regular c -> regular (TUn x c sc).
End Image.
(** a table of type raisings: X becomes T/(T\X) or T\(T/X) *)
Definition raising_table (raises : list (cat * list cat)) : Prop :=
  forall p d, In p raises -> In d (snd p) -> exists T, skeleton d = KS "/" T (KS "\" T (skeleton (fst p))) \/ skeleton d = KS "\" T (KS "/" T (skeleton (fst p))).
(** What is assumed of Bobcat's parser: as in C85, scores that behave as numbers, a beam of at least one tree, and a grammar and lexicon of well-formed categories. *)
Record bobcat S (ltb : S -> S -> bool) (add : S -> S -> S) (ninf : S) ha hs (is_same : stree S -> stree S -> bool) (order : list nat -> list nat) (pl pr : cat -> cat -> list cat)
    (cats : list (string * cat)) (changes raises : list (cat * list cat)) (b : nat) : Prop := {
  bc_order : score_order ltb; bc_add : score_add ltb add; bc_ninf : forall a, ltb a ninf = false; bc_beam : 1 <= b;
  bc_same : forall t, is_same t t = true; bc_same_cat : forall t u, is_same t u = true -> c_equals ha hs (t_cat t) (t_cat u) = true;
  bc_vars : forall vs v, In v (order vs) <-> In v vs; bc_left : forall a c d, In d (pl a c) -> BobSpec.proper d; bc_right : forall a c d, In d (pr a c) -> BobSpec.proper d;
  bc_cats : forall p, In p cats -> BobSpec.proper (snd p); bc_changes : forall p d, In p changes -> In d (snd p) -> BobSpec.proper d;
  bc_raises : forall p, In p raises -> BobSpec.proper (fst p) /\ forall d, In d (snd p) -> BobSpec.proper d }.
(** an example grammar: N becomes NP *)
Definition bt_n := At AN "" 1 None.
Definition bt_np := At ANP "" 1 None.
Definition bt_nn := Sl "/" (At AN "" 1 None) (At AN "" 1 None) 2 None 0.
Definition bt_cats : list (string * cat) := [("N", bt_n); ("N/N", bt_nn); ("S\NP", ex_vp); (".", At APeriod "" 1 None)].
Definition bt_tr := Sl "/" (At AS "" 1 None) (Sl "\" (At AS "" 1 None) (At ANP "" 2 None) 1 None 0) 1 None 0.
Definition bt_changes := [(bt_n, [bt_np])].
Definition bt_raises := [(bt_np, [bt_tr])].
Definition bt_sent : ChModel.sentence (option Z) :=
  Sent ["big"; "dogs"; "run"; "."] [[("N/N", Some 1%Z)]; [("N", Some 1%Z)]; [("S\NP", Some 2%Z)]; [(".", Some 1%Z)]] (map (fun p => (p, [])) (List.concat (map (fun i => map (fun j => (i, j)) (seq 0 4)) (seq 0 4)))).
Definition bt_parse := ChModel.parse zlt zadd None ex_eqc ex_same (bob_lexical bt_cats) (fun l r => combine same_order l r true none none yes) (bob_change ex_eqc bt_changes) (bob_raise ex_eqc bt_raises)
  (Some [At AS "" 0 None]) (fun _ _ => None) (Some (-1)%Z) (Some (-1)%Z) (Some 0%Z) (fun s => s) 4 None bt_sent.
