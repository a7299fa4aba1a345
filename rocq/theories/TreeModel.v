(** Model of pregroup trees ([lambeq/text2diagram/pregroup_tree.py]) and of the tree rewriter ([lambeq/experimental/discocirc/pregroup_tree_rewriter.py]).
    Simplifications: trees are finite and no node object occurs twice in them; the [parent] attribute is represented by the [ind] of the parent (all that [__eq__] and [get_parents] read of it);
    [typ_indxs] and the cache [_children_words] are left out; [get_root] and [get_depth] are not modelled; the drawing is the list of its lines (names without newlines);
    [str.lower] is that of ASCII letters; messages printed by [merge] are left out. *)
From Coq Require Import Ascii.
From Verif Require Import PyBase TyModel DiagModel.
Open Scope string_scope. Set Implicit Arguments. Unset Strict Implicit.

(** pregroup_tree.py 81-88: word, ind, typ, parent, children *)
Inductive node := Node (word : string) (ind : Z) (typ : ty) (par : option Z) (children : list node).
Definition n_word (n : node) : string := let 'Node w _ _ _ _ := n in w.
Definition n_ind (n : node) : Z := let 'Node _ i _ _ _ := n in i.
Definition n_typ (n : node) : ty := let 'Node _ _ t _ _ := n in t.
Definition n_par (n : node) : option Z := let 'Node _ _ _ p _ := n in p.
Definition n_children (n : node) : list node := let 'Node _ _ _ _ cs := n in cs.
Definition set_par (p : option Z) (n : node) : node := let 'Node w i t _ cs := n in Node w i t p cs.
(** 90-97: the constructor sets the parent of the children *)
Definition mk (w : string) (i : Z) (t : ty) (p : option Z) (cs : list node) : node := Node w i t p (map (set_par (Some i)) cs).
(** a stable sort by [ind], as [sorted] is *)
Fixpoint insert_ind (n : node) (l : list node) : list node := match l with [] => [n] | m :: l' => if (n_ind n <? n_ind m)%Z then n :: l else m :: insert_ind n l' end.
Definition sort_ind (l : list node) : list node := fold_left (fun acc n => insert_ind n acc) l [].
(** 109-119 [__eq__]: the parents are compared by their [ind]; the lists of children after sorting.  The recursion is on the size of the first tree. *)
Fixpoint size (n : node) : nat := let 'Node _ _ _ _ cs := n in S (list_sum (map size cs)).
Definition opt_eqb (a b : option Z) : bool := match a, b with Some x, Some y => (x =? y)%Z | None, None => true | _, _ => false end.
Fixpoint list_eqb {A} (f : A -> A -> bool) (l m : list A) : bool := match l, m with [], [] => true | x :: l', y :: m' => f x y && list_eqb f l' m' | _, _ => false end.
Fixpoint eq_fuel (k : nat) (a b : node) : bool :=
  match k with
  | O => false
  | S k' => (n_word a =? n_word b) && (n_ind a =? n_ind b)%Z && ty_eqb (n_typ a) (n_typ b) && opt_eqb (n_par a) (n_par b) && list_eqb (eq_fuel k') (sort_ind (n_children a)) (sort_ind (n_children b))
  end.
Definition node_eq (a b : node) : bool := eq_fuel (size a) a b.
(** 121-131 *)
Definition is_same_word (a b : node) : bool := (n_word a =? n_word b) && (n_ind a =? n_ind b)%Z.
(** 133-152: the lines of [_tree_repr]; a branch symbol is a pair of columns *)
Inductive branch := Last | Inner | Through | Gap.
Definition tline := (list branch * (string * Z * ty))%type.
Definition add_prefix (last : bool) (ls : list tline) : list tline :=
  match ls with
  | [] => []
  | (p, x) :: ls' => ((if last then Last else Inner) :: p, x) :: map (fun '(p, x) => ((if last then Gap else Through) :: p, x)) ls'
  end.
Fixpoint tree_repr (n : node) : list tline :=
  let 'Node w i t _ cs := n in
  ([], (w, i, t)) :: (fix go (cs : list node) : list tline := match cs with [] => [] | c :: cs' => add_prefix (match cs' with [] => true | _ => false end) (tree_repr c) ++ go cs' end)%list cs.
(** 158-173: the while loop visits the tree level by level *)
Fixpoint levels (fuel : nat) (h : nat) (curr : list node) : nat :=
  match fuel with
  | O => h
  | S f => match curr with [] => h | _ => let nxt := flat_map n_children curr in levels f (match nxt with [] => h | _ => S h end) nxt end
  end.
Definition height (n : node) : nat := levels (S (size n)) 1 [n].
(** 259-274 *)
Fixpoint nodes_flat (n : node) : list node := let 'Node _ _ _ _ cs := n in sort_ind (n :: List.concat (map nodes_flat cs)).
(** 276-300: [nodes_list[node.ind].append(node)] with a possibly negative index *)
Fixpoint append_at {A} (i : nat) (x : A) (l : list (list A)) : option (list (list A)) :=
  match l, i with
  | [], _ => None
  | b :: l', O => Some ((b ++ [x])%list :: l')
  | b :: l', S i' => option_map (cons b) (append_at i' x l')
  end.
Definition put (bs : list (list node)) (n : node) : res (list (list node)) :=
  let len := Z.of_nat (List.length bs) in let i := if (n_ind n <? 0)%Z then (n_ind n + len)%Z else n_ind n in
  if (i <? 0)%Z then Err IndexError else match append_at (Z.to_nat i) n bs with Some bs' => Ok bs' | None => Err IndexError end.
Definition get_nodes (n : node) : res (list (list node)) :=
  let flat := nodes_flat n in
  do bs <- foldM put flat (repeat [] (Z.to_nat (n_ind (last flat n) + 1)));
  Ok (filter (fun b => match b with [] => false | _ => true end) bs).
(** 175-257 *)
Definition get_types (n : node) : res (list (list ty)) := rmap (map (map n_typ)) (get_nodes n).
Definition get_parents (n : node) : res (list (list Z)) := rmap (map (map (fun m => match n_par m with Some p => p | None => (-1)%Z end))) (get_nodes n).
Definition get_words (n : node) : res (list string) := rmap (map (fun b => match b with m :: _ => n_word m | [] => "" end)) (get_nodes n).
Definition get_word_indices (n : node) : res (list Z) := rmap (map (fun b => match b with m :: _ => n_ind m | [] => 0%Z end)) (get_nodes n).
(** 345-377 *)
Definition merge (n : node) : node :=
  let 'Node w i t p cs := n in
  match cs with
  | [c] => if ty_eqb t (n_typ c) && (Z.abs (i - n_ind c) =? 1)%Z
           then mk (if (i <? n_ind c)%Z then w ++ " " ++ n_word c else n_word c ++ " " ++ w) (Z.min i (n_ind c)) t p (n_children c)
           else n
  | _ => n
  end.
(** 379-396 *)
Fixpoint remove_self_cycles (n : node) : node :=
  let 'Node w i t p cs := n in Node w i t p (List.concat (map (fun c => if (w =? n_word c) && (i =? n_ind c)%Z then [] else [remove_self_cycles c]) cs)).

(** ** pregroup_tree_rewriter.py *)
Inductive word_join := JMerge | JFirst | JLast.
(** 29-42; [None] and [[]] stand for the values taken as "no condition" *)
Record rule := Rule { match_type : option ty; match_words : list string; max_depth : option nat; r_join : word_join }.
Definition lower_ascii (c : ascii) : ascii := let n := nat_of_ascii c in if (65 <=? n)%nat && (n <=? 90)%nat then ascii_of_nat (n + 32) else c.
Fixpoint lower (s : string) : string := match s with EmptyString => EmptyString | String c r => String (lower_ascii c) (lower r) end.
Definition joined (j : word_join) (w1 w2 : string) : string := match j with JMerge => w1 ++ " " ++ w2 | JFirst => w1 | JLast => w2 end.
(** 53-57, except for the children *)
Definition cond (r : rule) (w : string) (t : ty) : bool :=
  match match_type r with Some u => ty_eqb t u | None => true end && match match_words r with [] => true | ws => existsb (String.eqb (lower w)) ws end.
(** 47-73 *)
Fixpoint edit_tree (r : rule) (n : node) : node * nat :=
  let 'Node w i t p cs := n in
  match cs with
  | [c] =>
      if cond r w t && ty_eqb (n_typ c) t then
        let '(c', k) := edit_tree r c in
        if match max_depth r with None => true | Some d => (k <? d)%nat end
        then (mk (joined (r_join r) w (n_word c')) (n_ind c') (n_typ c') (n_par c') (n_children c'), S k)
        else (mk w i t p [c'], k)
      else (mk w i t p [fst (edit_tree r c)], 0)
  | _ => (mk w i t p (map (fun c => fst (edit_tree r c)) cs), 0)
  end.
Definition rewrite (r : rule) (n : node) : node := fst (edit_tree r n).
(** 76-112 *)
Definition a_n : atom := ("n", 0%Z). Definition a_s : atom := ("s", 0%Z). Definition a_nr : atom := ("n", 1%Z).
Definition determiner_rule := Rule (Some [a_n]) ["a"; "an"; "the"] (Some 1) JLast.
Definition auxiliary_rule := Rule (Some [a_nr; a_s]) ["has"; "had"; "have"; "did"; "does"; "do"] (Some 1) JLast.
Definition noun_mod_rule := Rule (Some [a_n]) [] None JMerge.
Definition verb_mod_rule := Rule (Some [a_nr; a_s]) [] None JMerge.
Definition sentence_mod_rule := Rule (Some [a_s]) [] None JMerge.
Definition available (s : string) : option rule :=
  if s =? "determiner" then Some determiner_rule else if s =? "auxiliary" then Some auxiliary_rule else if s =? "noun_modification" then Some noun_mod_rule
  else if s =? "verb_modification" then Some verb_mod_rule else if s =? "sentence_modification" then Some sentence_mod_rule else None.
(** 131-142: the rules after the call, and whether it raised *)
Fixpoint add_rules (have : list rule) (new : list (rule + string)) : list rule * res unit :=
  match new with
  | [] => (have, Ok tt)
  | inl r :: new' => add_rules (have ++ [r])%list new'
  | inr s :: new' => match available s with Some r => add_rules (have ++ [r])%list new' | None => (have, Err ValueError) end
  end.
Definition init_rules (rules : option (list (rule + string))) : list rule * res unit := match rules with None => ([determiner_rule; auxiliary_rule], Ok tt) | Some l => add_rules [] l end.
(** 144-148 *)
Definition rewrite_all (rules : list rule) (n : node) : node := fold_left (fun n r => rewrite r n) rules n.
