(** Model of Bobcat's chart: lambeq/bobcat/parser.py 68-161 ([Cell]), 164-200 ([Chart]), 203-264 ([ParseResult]), 378-520 ([ChartParser]).
    Scores are floats: a type with a comparison, an addition and minus infinity, of which the theorems assume what floats (without NaN) satisfy.
    A tree is a node ([ptree] of BobModel: rule, category, variables) with its children and its score; [x is y] is an abstract test on trees.
    Simplifications: dependencies are left out; the grammar's rules are functions on nodes. *)
From Verif Require Import PyBase BobModel.
Open Scope string_scope. Set Implicit Arguments. Unset Strict Implicit.

(** ** 68-161: a cell *)
Section Cell.
  Variables (T C S : Type) (cat_of : T -> C) (score : T -> S) (ltb : S -> S -> bool) (ninf : S) (eqc : C -> C -> bool) (is_same : T -> T -> bool).
  (** [score == cmp] *)
  Definition eqs (a b : S) : bool := negb (ltb a b) && negb (ltb b a).
  Record cell := Cell { trees : list T; tmap : list (C * T); minsc : S }.
  Definition empty_cell : cell := Cell [] [] ninf.
  (** 83-97; [fuel] bounds the number of halvings *)
  Fixpoint find_from (fuel : nat) (l : list T) (sc : S) (lo hi : nat) : nat :=
    match fuel with
    | O => lo
    | Datatypes.S f =>
        if (lo <? hi)%nat then
          let mid := ((lo + hi) / 2)%nat in
          match nth_error l mid with
          | None => lo
          | Some t => if eqs sc (score t) then mid else if ltb (score t) sc then find_from f l sc lo mid else find_from f l sc (Datatypes.S mid) hi
          end
        else lo
    end.
  Definition find_pos (l : list T) (sc : S) : nat := find_from (List.length l) l sc 0 (List.length l).
  (** dictionaries with categories as keys *)
  Definition m_get (c : C) (m : list (C * T)) : option T := match find (fun p => eqc (fst p) c) m with Some p => Some (snd p) | None => None end.
  Fixpoint m_set (c : C) (t : T) (m : list (C * T)) : list (C * T) := match m with [] => [(c, t)] | p :: m' => if eqc (fst p) c then (fst p, t) :: m' else p :: m_set c t m' end.
  Fixpoint m_del (c : C) (m : list (C * T)) : res (list (C * T)) := match m with [] => Err KeyError | p :: m' => if eqc (fst p) c then Ok m' else rmap (cons p) (m_del c m') end.
  Definition del_nth (l : list T) (i : nat) : list T := (firstn i l ++ skipn (Datatypes.S i) l)%list.
  Definition ins_nth (l : list T) (i : nat) (t : T) : list T := (firstn i l ++ t :: skipn i l)%list.
  (** 130-135: from [old_index] on, as long as the scores are equal *)
  Fixpoint scan_up (old : T) (os : S) (i : nat) (l : list T) : option nat :=
    match l with [] => None | t :: l' => if is_same t old then Some i else if eqs (score t) os then scan_up old os (Datatypes.S i) l' else None end.
  (** 136-140: below it, downwards; [l] is the reversed part *)
  Fixpoint scan_down (old : T) (i : nat) (l : list T) : option nat :=
    match l with [] => None | t :: l' => if is_same t old then Some (pred i) else scan_down old (pred i) l' end.
  (** 126-140 *)
  Definition remove_old (l : list T) (old : T) : list T :=
    let i := find_pos l (score old) in
    match scan_up old (score old) i (skipn i l) with
    | Some j => del_nth l j
    | None => match scan_down old i (rev (firstn i l)) with Some j => del_nth l j | None => l end
    end.
  (** 147-157: the beam; the indices raise IndexError, which ends it *)
  Definition apply_beam (b : nat) (c : cell) (added : Z) : res (cell * Z) :=
    match py_index (trees c) (Z.of_nat b - 1) with
    | Ok t =>
        let c1 := Cell (trees c) (tmap c) (score t) in
        match nth_error (trees c) b with
        | None => Ok (c1, added)
        | Some u =>
            if ltb (score u) (score t) then
              do m <- foldM (fun m x => m_del (cat_of x) m) (skipn b (trees c)) (tmap c);
              Ok (Cell (firstn b (trees c)) m (score t), (added - (Z.of_nat (List.length (trees c)) - Z.of_nat b))%Z)
            else Ok (c1, added)
        end
    | Err _ => Ok (c, added)
    end.
  (** 112-157: one tree that gets past the test of 113 *)
  Definition add_one (b : nat) (c : cell) (added : Z) (t : T) : res (cell * Z) :=
    let put l := apply_beam b (Cell (ins_nth l (find_pos l (score t)) t) (m_set (cat_of t) t (tmap c)) (minsc c)) (added + 1)%Z in
    match m_get (cat_of t) (tmap c) with
    | None => put (trees c)
    | Some old => if ltb (score old) (score t) then put (remove_old (trees c) old) else Ok (c, added)
    end.
  (** 113-114 *)
  Definition full_above (b : nat) (c : cell) (sc : S) : bool := (b <=? List.length (trees c))%nat && match rev (trees c) with t :: _ => ltb sc (score t) | [] => false end.
  Fixpoint add_sorted (b : nat) (c : cell) (added : Z) (ts : list T) : res (cell * Z) :=
    match ts with [] => Ok (c, added) | t :: ts' => if full_above b c (score t) then Ok (c, added) else do r <- add_one b c added t; add_sorted b (fst r) (snd r) ts' end.
  (** [sorted(to_add, key=lambda tree: -tree.score)]: stable, best first *)
  Fixpoint ins_sorted (t : T) (l : list T) : list T := match l with [] => [t] | u :: l' => if ltb (score u) (score t) then t :: l else u :: ins_sorted t l' end.
  Definition best_first (ts : list T) : list T := fold_left (fun l t => ins_sorted t l) ts [].
  (** 99-161 *)
  Definition cell_add (b : nat) (c : cell) (ts : list T) : res (cell * Z) := add_sorted b c 0%Z (best_first ts).
End Cell.
Arguments empty_cell {T C S}.

(** ** The parser *)
Section Parser.
  Variables (S : Type) (ltb : S -> S -> bool) (add : S -> S -> S) (ninf : S) (eqc : cat -> cat -> bool).
  (** tree.py 227-236: leaves, unary and binary trees; [tree.left] and [tree.right] are the children *)
  Inductive stree := TLeaf (x : ptree) (w : string) (i : nat) (sc : S) | TUn (x : ptree) (c : stree) (sc : S) | TBin (x : ptree) (l r : stree) (sc : S).
  Definition t_node (t : stree) : ptree := match t with TLeaf x _ _ _ | TUn x _ _ | TBin x _ _ _ => x end.
  Definition t_score (t : stree) : S := match t with TLeaf _ _ _ sc | TUn _ _ sc | TBin _ _ _ sc => sc end.
  Definition t_cat (t : stree) : cat := p_cat (t_node t).
  Variable is_same : stree -> stree -> bool.
  (** what the grammar provides: [Lexical] on a category looked up in [self.categories] (392), [Rules.combine], [type_change] and [type_raise] on one tree *)
  Variable lexical : string -> string -> nat -> res ptree.
  Variable combine : ptree -> ptree -> res (list ptree).
  Variables change raise_ : ptree -> list ptree.
  Variable roots : option (list cat).
  (** [self.result_cats.get((label, cats))] *)
  Variable rid : string -> list cat -> option nat.
  Variables (missing_cat missing_span unset : S) (weigh : S -> S) (b : nat) (max_trees : option Z).
  Notation cell := (@cell stree cat S).
  Record chart := Chart { cells : list ((nat * nat) * cell); count : Z }.
  Definition key_eqb (p q : nat * nat) : bool := (fst p =? fst q)%nat && (snd p =? snd q)%nat.
  Definition get_cell (ch : chart) (s e : nat) : option cell := match find (fun p => key_eqb (fst p) (s, e)) (cells ch) with Some p => Some (snd p) | None => None end.
  Fixpoint set_cell (k : nat * nat) (c : cell) (l : list ((nat * nat) * cell)) : list ((nat * nat) * cell) :=
    match l with [] => [(k, c)] | p :: l' => if key_eqb (fst p) k then (k, c) :: l' else p :: set_cell k c l' end.
  (** 181-186 *)
  Definition min_score (ch : chart) (s e : nat) : S := match get_cell ch s e with Some c => minsc c | None => ninf end.
  (** 188-200 *)
  Definition chart_add (ch : chart) (s e : nat) (ts : list stree) : res chart :=
    match ts with
    | [] => Ok ch
    | _ => let c := match get_cell ch s e with Some c => c | None => empty_cell ninf end in
           do r <- cell_add t_cat t_score ltb eqc is_same b c ts; Ok (Chart (set_cell (s, e) (fst r) (cells ch)) (count ch + snd r)%Z)
    end.
  (** 363-374 *)
  Definition filter_root (ts : list stree) : list stree := match roots with None => ts | Some cs => filter (fun t => existsb (fun c => c_matches c (t_cat t)) cs) ts end.
  Notation scores := (list (nat * S)).
  (** 510-520 *)
  Definition span_score (sp : scores) (id : option nat) : S :=
    match id with None => missing_cat | Some i => match find (fun p => (fst p =? i)%nat) sp with Some p => snd p | None => missing_span end end.
  (** 467-487 *)
  Definition base_score (t : stree) : S := match t with TBin _ l r _ => add (t_score l) (t_score r) | _ => t_score t end.
  Definition unary_score (sp : scores) (x : ptree) (c : stree) : S :=
    match c with
    | TUn _ c' _ => add (base_score c') (span_score sp (rid "unary" [p_cat x; t_cat c; t_cat c']))
    | _ => add (base_score c) (span_score sp (rid "unary" [p_cat x; t_cat c]))
    end.
  (** 489-508 *)
  Definition binary_score (sp : scores) (x : ptree) (l r : stree) : S :=
    let id := if coordinated x then rid "conj" [p_cat x]
              else match rid "binary" [p_cat x] with
                   | Some i => Some i
                   | None => if atomk_eqb (c_atom (p_cat x)) ANP then rid "binary" [At ANP "" 0 None] else None
                   end in
    add (add (t_score l) (t_score r)) (span_score sp id).
  (** the score attributes of the new trees; a new tree may be the child of another one *)
  Fixpoint calc (sp : scores) (t : stree) : stree :=
    match t with TLeaf _ _ _ _ => t | TUn x c _ => TUn x (calc sp c) (unary_score sp x c) | TBin x l r _ => TBin x l r (binary_score sp x l r) end.
  (** rules.py 155-179: [results += type_change(results); results += type_raise(results)] *)
  Definition unaries (ts : list stree) : list stree :=
    let ts1 := (ts ++ List.concat (map (fun t => map (fun x => TUn x t unset) (change (t_node t))) ts))%list in
    (ts1 ++ List.concat (map (fun t => map (fun x => TUn x t unset) (raise_ (t_node t))) ts1))%list.
  Record sentence := Sent { words : list string; tags : list (list (string * S)); spans : list ((nat * nat) * scores) }.
  Definition get_span (st : sentence) (s e : nat) : option scores := match find (fun p => key_eqb (fst p) (s, e)) (spans st) with Some p => Some (snd p) | None => None end.
  (** 387-412 *)
  Definition lex_word (st : sentence) (ch : chart) (i : nat) (w : string) (tg : list (string * S)) : res chart :=
    do ls <- mapM (fun p => do x <- lexical (fst p) w (i + 1); Ok (TLeaf x w (i + 1) (weigh (snd p)))) tg;
    let n := List.length (words st) in
    let rs := match get_span st i i with None => ls | Some sp => if (1 <? n)%nat then map (calc sp) (unaries ls) else ls end in
    chart_add ch i i (if (n =? 1)%nat then filter_root rs else rs).
  Fixpoint lex_all (st : sentence) (ch : chart) (i : nat) (ws : list string) (tgs : list (list (string * S))) : res chart :=
    match ws, tgs with w :: ws', tg :: tgs' => do ch1 <- lex_word st ch i w tg; lex_all st ch1 (i + 1) ws' tgs' | _, _ => Ok ch end.
  (** 428-430 *)
  Definition max_of (sp : scores) : S := fold_left (fun m v => if ltb m v then v else m) (map snd sp) (if ltb missing_cat missing_span then missing_span else missing_cat).
  (** 439-464: the loop over [right_trees] *)
  Fixpoint rights (st : sentence) (s e : nat) (sp : scores) (lt : stree) (rs : list stree) (ch : chart) : res chart :=
    match rs with
    | [] => Ok ch
    | rt :: rs' =>
        if ltb (add (add (t_score lt) (t_score rt)) (max_of sp)) (min_score ch s e) then Ok ch
        else
          do xs <- combine (t_node lt) (t_node rt);
          let ts := map (fun x => TBin x lt rt unset) xs in
          let ts1 := if match ts with [] => false | _ => true end && (e - s + 1 <? List.length (words st))%nat then unaries ts else ts in
          let ts2 := if (e - s =? List.length (words st) - 1)%nat then filter_root ts1 else ts1 in
          do ch1 <- chart_add ch s e (map (calc sp) ts2);
          rights st s e sp lt rs' ch1
    end.
  (** 431-438 *)
  Definition split_at (st : sentence) (s e : nat) (sp : scores) (ch : chart) (m : nat) : res chart :=
    match get_cell ch s (m - 1), get_cell ch m e with
    | Some cl, Some cr => foldM (fun ch lt => rights st s e sp lt (trees cr) ch) (trees cl) ch
    | _, _ => Ok ch
    end.
  (** 419-464 *)
  Definition one_span (st : sentence) (ch : chart) (s e : nat) : res chart :=
    match get_span st s e with None => Ok ch | Some sp => foldM (fun ch m => split_at st s e sp ch m) (seq (s + 1) (e - s)) ch end.
  (** 414-418 *)
  Fixpoint ends (st : sentence) (len : nat) (es : list nat) (ch : chart) : res chart :=
    match es with
    | [] => Ok ch
    | e :: es' => if match max_trees with Some m => (m <? count ch)%Z | None => false end then Ok ch else do ch1 <- one_span st ch (e - len) e; ends st len es' ch1
    end.
  Definition parse_chart (st : sentence) : res chart :=
    let n := List.length (words st) in
    do ch <- lex_all st (Chart [] 0%Z) 0 (words st) (tags st);
    foldM (fun ch len => ends st len (seq len (n - len)) ch) (seq 1 (n - 1)) ch.
  (** 225-243: the result; [fuel] bounds the number of words *)
  Fixpoint leftmost (t : stree) : string := match t with TLeaf _ w _ _ => w | TUn _ c _ => leftmost c | TBin _ l _ _ => leftmost l end.
  Fixpoint read_words (fuel : nat) (ch : chart) (k : nat) : res (list string) :=
    match fuel with
    | O => Ok []
    | Datatypes.S f => match get_cell ch k k with None => Ok [] | Some c => match trees c with [] => Err IndexError | t :: _ => rmap (cons (leftmost t)) (read_words f ch (k + 1)) end end
    end.
  Definition parse_result (ch : chart) : res (list string * list stree) :=
    do ws <- read_words (Datatypes.S (List.length (cells ch))) ch 0;
    Ok (ws, match ws with [] => [] | _ => match get_cell ch 0 (List.length ws - 1) with Some c => trees c | None => [] end end).
  Definition parse (st : sentence) : res (list string * list stree) := do ch <- parse_chart st; parse_result ch.
End Parser.
(** rules.py 139-179, tree.py 321-347, 377-391: the unary rules of a grammar, given as dicts *)
Definition bob_change (eqc : cat -> cat -> bool) (rules : list (cat * list cat)) (t : ptree) : list ptree :=
  map (fun c => PT RU c (Some t) None (match p_vars t (c_var (p_cat t)) with Some v => if (c_var c =? 0)%nat then fun _ => None else upd (fun _ => None) (c_var c) v | None => fun _ => None end)) (match_rule eqc rules (p_cat t)).
Definition bob_raise (eqc : cat -> cat -> bool) (rules : list (cat * list cat)) (t : ptree) : list ptree :=
  map (fun c => PT (if fwd c then RFTR else RBTR) c (Some t) None (match p_vars t (c_var (p_cat t)) with Some v => upd (fun _ => None) 1 v | None => fun _ => None end)) (match_rule eqc rules (p_cat t)).
(** parser.py 386-393, tree.py 293-298: [Lexical] of the category with the given name *)
Definition bob_lexical (cats : list (string * cat)) (name w : string) (i : nat) : res ptree :=
  match find (fun p => (fst p =? name)%string) cats with
  | None => Err KeyError
  | Some p => if (c_var (snd p) =? 0)%nat then Err AssertionError else Ok (PT RL (snd p) None None (upd (fun _ => None) (c_var (snd p)) ([w], true)))
  end.
