(** Model of [lambeq/text2diagram/ccg_type.py], [ccg_rule.py] and [ccg_tree.py].
    Simplifications: a Python [str] is a Coq [string] (bytes); [pretty=True]
    printing, derivation drawing and metadata are not modelled; the text cache
    [_text] is not updated by reading [text] (same answers). *)
From Verif Require Import PyBase TyModel DiagModel.
Set Implicit Arguments.

(** ** ccg_type.py *)

Inductive dir := Over | Under.
(** ccg_type.py 86-123: the assertions of [__init__] leave exactly these three shapes. *)
Inductive cty := CEmpty | CAtom (name : string) | CSlash (result : cty) (d : dir) (argument : cty).

Definition dir_eqb (a b : dir) : bool :=
  match a, b with Over, Over | Under, Under => true | _, _ => false end.
(** dataclass [__eq__] *)
Fixpoint cty_eqb (a b : cty) : bool :=
  match a, b with
  | CEmpty, CEmpty => true
  | CAtom m, CAtom n => String.eqb m n
  | CSlash r d x, CSlash r' d' x' => cty_eqb r r' && dir_eqb d d' && cty_eqb x x'
  | _, _ => false
  end.

(** ccg_type.py 110-114 *)
Definition c_is_complex (t : cty) : bool := match t with CSlash _ _ _ => true | _ => false end.
Definition c_is_atomic (t : cty) : bool := match t with CAtom _ => true | _ => false end.
Definition c_is_over (t : cty) : bool := match t with CSlash _ Over _ => true | _ => false end.
Definition c_is_under (t : cty) : bool := match t with CSlash _ Under _ => true | _ => false end.
(** ccg_type.py 138-172 *)
Definition c_result (t : cty) : res cty := match t with CSlash r _ _ => Ok r | _ => Err AttributeError end.
Definition c_argument (t : cty) : res cty := match t with CSlash _ _ a => Ok a | _ => Err AttributeError end.
Definition c_direction (t : cty) : res dir := match t with CSlash _ d _ => Ok d | _ => Err AttributeError end.
(** ccg_type.py 174-186, 188-200 *)
Definition c_left (t : cty) : res cty :=
  match t with CSlash r Over _ => Ok r | CSlash _ Under a => Ok a | _ => Err AttributeError end.
Definition c_right (t : cty) : res cty :=
  match t with CSlash _ Over a => Ok a | CSlash r Under _ => Ok r | _ => Err AttributeError end.
(** ccg_type.py 207-225: [slash], [over], [under], [a << b], [a >> b] *)
Definition c_slash (t : cty) (d : dir) (a : cty) : cty := CSlash t d a.
Definition c_over (t a : cty) : cty := CSlash t Over a.
Definition c_under (t a : cty) : cty := CSlash t Under a.
Definition c_lshift (a b : cty) : cty := c_over a b.
Definition c_rshift (a b : cty) : cty := c_under b a.
(** ccg_type.py 563-568 *)
Definition NOUN := CAtom "n".
Definition NOUN_PHRASE := CAtom "np".
Definition CONJUNCTION := CAtom "conj".
Definition PUNCTUATION := CAtom "punc".
(** ccg_type.py 202-205 *)
Definition c_is_conjoinable (t : cty) : bool := cty_eqb t CONJUNCTION || cty_eqb t PUNCTUATION.

Definition dir_char (d : dir) : ascii := match d with Over => "/"%char | Under => "\"%char end.
Definition bracket (b : bool) (s : string) : string := if b then ("(" ++ s ++ ")")%string else s.
(** ccg_type.py 227-255 with [pretty=False] *)
Fixpoint to_string (t : cty) : string :=
  match t with
  | CEmpty => "()"
  | CAtom n => n
  | CSlash r d a =>
      (bracket (c_is_complex r) (to_string r) ++ String (dir_char d) ""
       ++ bracket (c_is_complex a) (to_string a))%string
  end.

(** Result of the parsing helpers; the position [end] is represented by the
    remaining suffix [cat[end:]], the only thing the code looks at. *)
Inductive pout :=
| POk (t : cty) (rest : list ascii)
| PErr      (* CCGParseError *)
| PAssert   (* AssertionError *)
| PFuel.    (* recursion bound of the model reached: proved impossible *)

Definition is_op (c : ascii) : option dir :=
  if Ascii.eqb c "/" then Some Over else if Ascii.eqb c "\" then Some Under else None.
(** membership in the string [r'/\)'] *)
Definition is_stop (c : ascii) : bool := Ascii.eqb c "/" || Ascii.eqb c "\" || Ascii.eqb c ")".

(** ccg_type.py 369-374: the loop reading an atomic name; None is the error at "(". *)
Fixpoint read_atom (s : list ascii) : option (list ascii * list ascii) :=
  match s with
  | [] => Some ([], [])
  | c :: s' =>
      if is_stop c then Some ([], s)
      else if Ascii.eqb c "(" then None
      else match read_atom s' with Some (a, r) => Some (c :: a, r) | None => None end
  end.

(** ccg_type.py 335-351 [_parse_compound], given [_parse_clean]. *)
Definition parse_compound (clean : list ascii -> pout) (s : list ascii) : pout :=
  match clean s with
  | POk t (op :: rest) =>
      match is_op op with
      | Some d => match clean rest with POk a rest' => POk (c_slash t d a) rest' | e => e end
      | None => POk t (op :: rest)
      end
  | x => x
  end.

(** ccg_type.py 353-388 [_parse_clean] *)
Fixpoint parse_clean (map_atomic : string -> string) (fuel : nat) (s : list ascii) : pout :=
  match fuel with
  | 0 => PFuel
  | S f =>
      match s with
      | [] => PErr
      | c :: s' =>
          if negb (Ascii.eqb c "(") then
            if is_stop c then PErr
            else match read_atom s with
                 | None => PErr
                 | Some (a, rest) => POk (CAtom (map_atomic (string_of_list_ascii a))) rest
                 end
          else
            match parse_compound (parse_clean map_atomic f) s' with
            | POk t [] => PErr
            | POk t (c2 :: rest) => if Ascii.eqb c2 ")" then POk t rest else PAssert
            | e => e
            end
      end
  end.

Inductive parsed := Parsed (t : cty) | ParseError | ParseAssert | ParseFuel.

Definition CONJ_TAG : list ascii := list_ascii_of_string "[conj]".
(** [cat.endswith(tag)] / [cat[:-len(tag)]] *)
Fixpoint ascii_list_eqb (a b : list ascii) : bool :=
  match a, b with
  | [], [] => true
  | x :: a', y :: b' => Ascii.eqb x y && ascii_list_eqb a' b'
  | _, _ => false
  end.
Definition ends_with (tag s : list ascii) : bool :=
  (List.length tag <=? List.length s) && ascii_list_eqb (skipn (List.length s - List.length tag) s) tag.
Definition chop (tag s : list ascii) : list ascii := firstn (List.length s - List.length tag) s.

(** ccg_type.py 264-333 [parse]; the recursion bound is the length of the input plus one. *)
Definition parse_with (map_atomic : string -> string) (cat : string) : parsed :=
  let s := list_ascii_of_string cat in
  let is_conj := ends_with CONJ_TAG s in
  let clean_cat := if is_conj then chop CONJ_TAG s else s in
  match parse_compound (parse_clean map_atomic (S (List.length clean_cat))) clean_cat with
  | POk t rest =>
      let t' := if is_conj then c_rshift t t else t in
      match rest with [] => Parsed t' | _ => ParseError end
  | PErr => ParseError
  | PAssert => ParseAssert
  | PFuel => ParseFuel
  end.
(** [parse(cat)] without [map_atomic] *)
Definition parse (cat : string) : parsed := parse_with (fun s => s) cat.

(** ccg_type.py 390-400 *)
Fixpoint c_replace (o r : cty) (t : cty) : res cty :=
  if cty_eqb t o then Ok r
  else match t with
       | CAtom _ => Ok t
       | CEmpty => Err AttributeError
       | CSlash x d y =>
           do x' <- c_replace o r x; do y' <- c_replace o r y; Ok (c_slash x' d y')
       end.

(** The direction string: first and last characters, when the check on line 488 passes. *)
Definition dir_ok (c : ascii) : bool := Ascii.eqb c "\" || Ascii.eqb c "|" || Ascii.eqb c "/".
Definition direction_ends (direction : string) : option (ascii * ascii) :=
  match direction with
  | String a EmptyString => if dir_ok a then Some (a, a) else None
  | String a (String b EmptyString) => if dir_ok a && dir_ok b then Some (a, b) else None
  | _ => None
  end.
(** [d != c != '|'] *)
Definition mismatch (d : dir) (c : ascii) : bool :=
  negb (Ascii.eqb (dir_char d) c) && negb (Ascii.eqb c "|").

(** ccg_type.py 490-514 *)
Fixpoint replace_result_loop (o r : cty) (c0 c1 : ascii) (t : cty) : res (cty * option cty) :=
  match t with
  | CAtom _ => Ok (t, None)
  | CEmpty => Err AttributeError
  | CSlash x d y =>
      do inner <-
        (if cty_eqb x o || c_is_atomic x then Ok None
         else if mismatch d c1 then Ok None
         else do p <- replace_result_loop o r c0 c1 x;
              Ok (match p with (new, Some old) => Some (new, old) | (_, None) => None end));
      match inner with
      | Some (new, old) => Ok (c_slash new d y, Some old)
      | None =>
          if mismatch d c0 then Ok (t, None) else Ok (c_slash r d y, Some x)
      end
  end.
(** ccg_type.py 402-514 *)
Definition replace_result (o r : cty) (direction : string) (t : cty) : res (cty * option cty) :=
  match direction_ends direction with
  | None => Err ValueError
  | Some (c0, c1) => replace_result_loop o r c0 c1 t
  end.

(** ccg_type.py 516-530: [X << Y] is [X @ Y.l], [Y >> X] is [Y.r @ X]. *)
Fixpoint to_grammar (t : cty) : ty :=
  match t with
  | CSlash r Over a => to_grammar r ++ ty_l (to_grammar a)
  | CSlash r Under a => ty_r (to_grammar a) ++ to_grammar r
  | CAtom n => [(n, 0%Z)]
  | CEmpty => []
  end.

(** ccg_type.py 532-559: the while loop, with its running [left], [right]. *)
Fixpoint split_loop (base : cty) (lft rgt : ty) (cat : cty) : res (ty * ty * ty) :=
  if cty_eqb cat base then Ok (lft, to_grammar cat, rgt)
  else match cat with
       | CSlash r Over a => split_loop base lft (ty_l (to_grammar a) ++ rgt) r
       | CSlash r Under a => split_loop base (lft ++ ty_r (to_grammar a)) rgt r
       | _ => Err AttributeError
       end.
Definition split (base cat : cty) : res (ty * ty * ty) := split_loop base [] [] cat.

(** ** ccg_rule.py *)

(** ccg_rule.py 42-59 *)
Inductive rule :=
| UNKNOWN | LEXICAL | UNARY | FA | BA | FC | BC | FX | BX | GFC | GBC | GFX | GBX
| LP | RP | FTR | BTR | CONJ.
Definition rule_eqb (a b : rule) : bool :=
  match a, b with
  | UNKNOWN, UNKNOWN | LEXICAL, LEXICAL | UNARY, UNARY | FA, FA | BA, BA | FC, FC | BC, BC
  | FX, FX | BX, BX | GFC, GFC | GBC, GBC | GFX, GFX | GBX, GBX | LP, LP | RP, RP
  | FTR, FTR | BTR, BTR | CONJ, CONJ => true
  | _, _ => false
  end.
(** ccg_rule.py 42-59: the string values *)
Definition rule_value (r : rule) : string :=
  match r with
  | UNKNOWN => "UNK" | LEXICAL => "L" | UNARY => "U" | FA => "FA" | BA => "BA" | FC => "FC"
  | BC => "BC" | FX => "FX" | BX => "BX" | GFC => "GFC" | GBC => "GBC" | GFX => "GFX"
  | GBX => "GBX" | LP => "LP" | RP => "RP" | FTR => "FTR" | BTR => "BTR" | CONJ => "CONJ"
  end.
Definition all_rules : list rule :=
  [UNKNOWN; LEXICAL; UNARY; FA; BA; FC; BC; FX; BX; GFC; GBC; GFX; GBX; LP; RP; FTR; BTR; CONJ].
(** [CCGRule(value)]: enum lookup; ccg_rule.py 75-77 maps unknown values to UNKNOWN *)
Definition rule_of_value (s : string) : rule :=
  match find (fun r => String.eqb (rule_value r) s) all_rules with Some r => r | None => UNKNOWN end.

(** ccg_rule.py 79-83; CCGRuleUseError is OtherError *)
Definition check_match (a b : cty) : res unit := if cty_eqb a b then Ok tt else Err OtherError.

(** [left, right = dom] *)
Definition unpack2 {A} (l : list A) : res (A * A) :=
  match l with [a; b] => Ok (a, b) | _ => Err ValueError end.
Definition assert_some {A} (x : option A) : res A :=
  match x with Some a => Ok a | None => Err AssertionError end.

(** ccg_rule.py 85-169 *)
Definition resolve (ru : rule) (dm : list cty) (cd : cty) : res (list cty) :=
  match ru with
  | UNKNOWN => Err OtherError
  | LEXICAL => match dm with [] => Ok [] | _ => Err AssertionError end
  | UNARY => Ok [cd]
  | BTR | FTR => do a <- c_argument cd; do b <- c_argument a; Ok [b]
  | _ =>
      do lr <- unpack2 dm;
      let '(lft, rgt) := lr in
      match ru with
      | FA => Ok [c_lshift cd rgt; rgt]
      | BA => Ok [lft; c_rshift lft cd]
      | FC =>
          do l_r <- c_right lft; do r_l <- c_left rgt; do _ <- check_match l_r r_l;
          do cr <- c_result cd; do ca <- c_argument cd;
          Ok [c_lshift cr l_r; c_lshift r_l ca]
      | BC =>
          do l_r <- c_right lft; do r_l <- c_left rgt; do _ <- check_match l_r r_l;
          do ca <- c_argument cd; do cr <- c_result cd;
          Ok [c_rshift ca l_r; c_rshift r_l cr]
      | FX =>
          do l_r <- c_right lft; do r_r <- c_right rgt; do _ <- check_match l_r r_r;
          do c_r <- c_right cd; do c_l <- c_left cd;
          Ok [c_lshift c_r l_r; c_rshift c_l r_r]
      | BX =>
          do l_l <- c_left lft; do r_l <- c_left rgt; do _ <- check_match l_l r_l;
          do c_r <- c_right cd; do c_l <- c_left cd;
          Ok [c_lshift l_l c_r; c_rshift r_l c_l]
      | GFC =>
          do ll <- c_left lft; do lr <- c_right lft;
          do p <- replace_result ll lr "/" cd;
          do nl <- assert_some (snd p); Ok [c_lshift nl lr; fst p]
      | GBC =>
          do rl <- c_left rgt; do rr <- c_right rgt;
          do p <- replace_result rr rl "\" cd;
          do nr <- assert_some (snd p); Ok [fst p; c_rshift rl nr]
      | GFX =>
          do ll <- c_left lft; do lr <- c_right lft;
          do p <- replace_result ll lr "\|" cd;
          do nl <- assert_some (snd p); Ok [c_lshift nl lr; fst p]
      | GBX =>
          do rl <- c_left rgt; do rr <- c_right rgt;
          do p <- replace_result rr rl "/|" cd;
          do nr <- assert_some (snd p); Ok [fst p; c_rshift rl nr]
      | LP => Ok [lft; cd]
      | RP => Ok [cd; rgt]
      | CONJ =>
          if c_is_conjoinable lft then Ok [c_lshift cd rgt; rgt]
          else if c_is_conjoinable rgt then Ok [lft; c_rshift lft cd]
          else Err OtherError
      | _ => Err AssertionError
      end
  end.

(** ccg_rule.py 176-314 *)
Definition apply_rule (ru : rule) (dm : list cty) (cd : option cty) : res diagram :=
  match ru with
  | UNKNOWN | LEXICAL | CONJ => Err OtherError
  | UNARY | BTR | FTR =>
      match dm with
      | [x] =>
          match ru with
          | UNARY => Ok (id (to_grammar x))
          | _ =>
              match cd with
              | None => Err OtherError
              | Some c =>
                  do cr <- c_result c;
                  let result := to_grammar cr in
                  match ru with
                  | BTR => do k <- caps (ty_r result) result false; Ok (tensor (id (to_grammar x)) k)
                  | _ => do k <- caps result (ty_l result) false; Ok (tensor k (id (to_grammar x)))
                  end
              end
          end
      | _ => Err OtherError
      end
  | _ =>
      match dm with
      | [lft; rgt] =>
          match ru with
          | FA => do a <- c_result lft; d_fa (to_grammar a) (to_grammar rgt)
          | BA => do b <- c_result rgt; d_ba (to_grammar lft) (to_grammar b)
          | FC => do a <- c_left lft; do b <- c_right lft; do c <- c_right rgt;
                  d_fc (to_grammar a) (to_grammar b) (to_grammar c)
          | BC => do a <- c_left lft; do b <- c_right lft; do c <- c_right rgt;
                  d_bc (to_grammar a) (to_grammar b) (to_grammar c)
          | FX => do a <- c_left lft; do b <- c_right lft; do c <- c_left rgt;
                  d_fx (to_grammar a) (to_grammar b) (to_grammar c)
          | BX => do a <- c_right lft; do b <- c_left lft; do c <- c_right rgt;
                  d_bx (to_grammar a) (to_grammar b) (to_grammar c)
          | GFC =>
              do a <- c_argument lft; let mid := to_grammar a in
              do b <- c_result lft;
              do k <- cups (ty_l mid) mid false;
              Ok (tensor (tensor (id (to_grammar b)) k)
                    (id (py_slice (to_grammar rgt) (Some (Z.of_nat (List.length mid))) None)))
          | GBC =>
              do a <- c_argument rgt; let mid := to_grammar a in
              do k <- cups mid (ty_r mid) false;
              do b <- c_result rgt;
              Ok (tensor (tensor (id (py_slice (to_grammar lft) None (Some (- Z.of_nat (List.length mid))%Z))) k)
                    (id (to_grammar b)))
          | GFX =>
              do a <- c_left lft; let mid := to_grammar a in
              do lr <- c_right lft;
              do p <- split lr rgt;
              let '(l, join, r) := p in
              do s <- swap (mid ++ ty_l join) l;
              do k <- cups (ty_l join) join false;
              do body <- d_then (tensor s (id join)) (tensor (id (l ++ mid)) k);
              Ok (tensor body (id r))
          | GBX =>
              do b <- c_right rgt; let mid := to_grammar b in
              do rl <- c_left rgt;
              do p <- split rl lft;
              let '(l, join, r) := p in
              do s <- swap r (ty_r join ++ mid);
              do k <- cups join (ty_r join) false;
              do body <- d_then (tensor (id join) s) (tensor k (id (mid ++ r)));
              Ok (tensor (id l) body)
          | LP => Ok (id (to_grammar rgt))
          | RP => Ok (id (to_grammar lft))
          | _ => Err AssertionError
          end
      | _ => Err OtherError
      end
  end.

Definition opt_cty_eqb (a b : option cty) : bool :=
  match a, b with None, None => true | Some x, Some y => cty_eqb x y | _, _ => false end.
(** [t.replace_result(o, r, direction) == (cod, old)] *)
Definition rr_is (o r : cty) (direction : string) (t cd old : cty) : res bool :=
  do p <- replace_result o r direction t;
  Ok (cty_eqb (fst p) cd && opt_cty_eqb (snd p) (Some old)).

(** ccg_rule.py 316-389 *)
Definition infer_rule (dm : list cty) (cd : cty) : res rule :=
  match dm with
  | [] => Ok LEXICAL
  | [x] =>
      match cd with
      | CSlash cr _ _ =>
          if cty_eqb cd (c_over cr (c_under cr x)) then Ok FTR
          else if cty_eqb cd (c_under cr (c_over cr x)) then Ok BTR
          else Ok UNARY
      | _ => Ok UNARY
      end
  | [lft; rgt] =>
      if cty_eqb lft PUNCTUATION then
        if cty_eqb cd (c_rshift rgt rgt) then Ok CONJ else Ok LP
      else if cty_eqb rgt PUNCTUATION then
        if cty_eqb cd (c_lshift lft lft) then Ok CONJ else Ok RP
      else if cty_eqb lft (c_lshift cd rgt) then Ok FA
      else if cty_eqb rgt (c_rshift lft cd) then Ok BA
      else if cty_eqb CONJUNCTION lft || cty_eqb CONJUNCTION rgt then Ok CONJ
      else if c_is_complex cd && c_is_complex lft && c_is_complex rgt then
        do ll <- c_left lft; do lr <- c_right lft; do rl <- c_left rgt; do rr <- c_right rgt;
        do cl <- c_left cd; do cr <- c_right cd;
        let comp := cty_eqb lr rl && (cty_eqb cl ll && cty_eqb cr rr) in
        if comp && (c_is_over cd && c_is_over lft && c_is_over rgt) then Ok FC
        else if comp && (c_is_under cd && c_is_under lft && c_is_under rgt) then Ok BC
        else
          do back <-
            (if c_is_under rgt then
               if c_is_over lft && cty_eqb ll rl && cty_eqb cd (c_lshift rr lr) then Ok (Some BX)
               else
                 do g <- rr_is rl rr "\" lft cd rl;
                 if g then Ok (Some GBC)
                 else do h <- rr_is rl rr "/|" lft cd rl;
                      if h then Ok (Some GBX) else Ok None
             else Ok None);
          match back with
          | Some ru => Ok ru
          | None =>
              if c_is_over lft then
                if c_is_under rgt && cty_eqb lr rr && cty_eqb cd (c_rshift rl ll) then Ok FX
                else
                  do g <- rr_is lr ll "/" rgt cd lr;
                  if g then Ok GFC
                  else do h <- rr_is lr ll "\|" rgt cd lr;
                       if h then Ok GFX else Ok UNKNOWN
              else Ok UNKNOWN
          end
      else Ok UNKNOWN
  | _ => Ok UNKNOWN
  end.

(** ** ccg_tree.py *)

(** Fields [_text], [rule], [biclosed_type], [children]. *)
Inductive ctree := CT (text : option string) (ru : rule) (t : cty) (children : list ctree).
Definition t_rawtext (x : ctree) := let 'CT s _ _ _ := x in s.
Definition t_rule (x : ctree) := let 'CT _ r _ _ := x in r.
Definition t_type (x : ctree) := let 'CT _ _ t _ := x in t.
Definition t_children (x : ctree) := let 'CT _ _ _ c := x in c.

(** ccg_tree.py 74-78 *)
Definition required_children (r : rule) : nat :=
  match r with LEXICAL => 0 | UNARY | FTR | BTR => 1 | _ => 2 end.
(** truthiness of [text] *)
Definition truthy (s : option string) : bool :=
  match s with None => false | Some x => negb (String.eqb x "") end.
(** ccg_tree.py 41-94 [CCGTree(text, rule=, biclosed_type=, children=)] *)
Definition mk_tree (text : option string) (r : rule) (t : cty) (cs : list ctree) : res ctree :=
  if negb (rule_eqb r UNKNOWN) && negb (List.length cs =? required_children r) then Err ValueError
  else Ok (CT text (if truthy text && (List.length cs =? 0) then LEXICAL else r) t cs).

(** [[f c for c in l]] and [[f c (dm[i]) for i, c in enumerate(l)]] *)
Definition mapR {A B} (f : A -> res B) : list A -> res (list B) :=
  fix go l := match l with
              | [] => Ok []
              | c :: l' => do c' <- f c; do r <- go l'; Ok (c' :: r)
              end.
Definition zipR {A B C} (f : A -> B -> res C) : list A -> list B -> res (list C) :=
  fix go l dm := match l, dm with
                 | [], _ => Ok []
                 | _ :: _, [] => Err IndexError
                 | c :: l', d :: dm' => do c' <- f c d; do r <- go l' dm'; Ok (c' :: r)
                 end.

(** ccg_tree.py 96-101 *)
Fixpoint t_text (x : ctree) : string :=
  match x with
  | CT (Some s) _ _ _ => s
  | CT None _ _ cs => String.concat " " (map t_text cs)
  end.

(** [len(xs) == len(ys) and all(f(x, y) for x, y in zip(xs, ys))] *)
Definition all2 {A B} (f : A -> B -> bool) : list A -> list B -> bool :=
  fix go xs ys := match xs, ys with
                  | [], [] => true
                  | x :: xs', y :: ys' => f x y && go xs' ys'
                  | _, _ => false
                  end.
(** ccg_tree.py 201-208 *)
Fixpoint ctree_eqb (a b : ctree) {struct a} : bool :=
  String.eqb (t_text a) (t_text b) && rule_eqb (t_rule a) (t_rule b)
  && cty_eqb (t_type a) (t_type b)
  && (let 'CT _ _ _ ca := a in all2 ctree_eqb ca (t_children b)).

(** The JSON object of ccg_tree.py 187-199: absent keys are None. *)
Inductive tjson := TJ (type : string) (rule : option string) (text : option string)
                      (children : option (list tjson)).

(** ccg_tree.py 187-199 *)
Fixpoint to_json (x : ctree) : tjson :=
  let 'CT _ r t cs := x in
  TJ (to_string t)
     (if rule_eqb r UNKNOWN then None else Some (rule_value r))
     (if String.eqb (t_text x) (String.concat " " (map t_text cs)) then None else Some (t_text x))
     (match cs with [] => None | _ => Some (map to_json cs) end).

(** ccg_tree.py 134-163 (a parse failure raises CCGParseError, OtherError here) *)
Fixpoint from_json (j : tjson) : res ctree :=
  let 'TJ ty_s r s cs := j in
  do t <- (match parse ty_s with Parsed t => Ok t | ParseAssert => Err AssertionError | _ => Err OtherError end);
  do cs' <- (match cs with
             | None => Ok []
             | Some l => mapR from_json l
             end);
  mk_tree s (match r with None => UNKNOWN | Some v => rule_of_value v end) t cs'.

(** ccg_tree.py 179-182: the while loop descending through trivial unary nodes
    ([new_tree.child] is the only child), then 183-185. *)
Fixpoint without_trivial (x : ctree) : ctree :=
  let 'CT s r t cs := x in
  match r, cs with
  | UNARY, [c] => if cty_eqb t (t_type c) then without_trivial c
                  else CT s r t (map without_trivial cs)
  | _, _ => CT s r t (map without_trivial cs)
  end.

(** ccg_tree.py 339-353 *)
Fixpoint collapse_np (x : ctree) : res ctree :=
  let 'CT s r t cs := x in
  do t' <- c_replace NOUN_PHRASE NOUN t;
  do cs' <- mapR collapse_np cs;
  mk_tree s r t' cs'.

(** ccg_tree.py 386-387: the two directions are exactly '/' and '\' *)
Definition directions_differ (a b : cty) : bool :=
  match a, b with
  | CSlash _ d _, CSlash _ d' _ => negb (dir_eqb d d')
  | _, _ => false
  end.
Definition other_dir (d : dir) : dir := match d with Over => Under | Under => Over end.
(** ccg_tree.py 394-401 *)
Definition swap_dom (output : cty) : res (list cty) :=
  do d <- c_direction output; do a <- c_argument output; do r <- c_result output;
  Ok [c_slash a (other_dir d) (c_slash CEmpty d (c_slash CEmpty d r))].

(** ccg_tree.py 355-429; [resolved_output] is always given here (the [or] on
    line 375 is done by the caller). *)
Fixpoint resolved (x : ctree) (output : cty) {struct x} : res ctree :=
  let 'CT s ru t cs := x in
  match ru with
  | LEXICAL =>
      if cty_eqb output t then Ok x else mk_tree (Some (t_text x)) UNKNOWN output []
  | _ =>
      let build (ru' : rule) (dm : list cty) : res ctree :=
        do cs' <- zipR resolved cs dm;
        if all2 ctree_eqb cs' cs && cty_eqb output t
        then Ok x else mk_tree None ru' output cs' in
      let general :=
        do dm <- resolve ru (map t_type cs) output;
        match ru, cs with
        | CONJ, c0 :: _ => build (if c_is_conjoinable (t_type c0) then FA else BA) dm
        | _, _ => build ru dm
        end in
      match ru with
      | UNARY =>
          match cs with
          | [c] => if directions_differ output (t_type c)
                   then do dm <- swap_dom output; build ru dm
                   else resolved c output
          | _ => Err ValueError
          end
      | FC =>
          match cs with
          | [c0; _] =>
              if rule_eqb (t_rule c0) FTR then
                do lft <- c_left output; do rgt <- c_right output;
                do a <- c_right (t_type c0); do b <- c_left a;
                let mid := c_rshift b lft in
                do dm <- resolve ru [c_lshift lft mid; c_lshift mid rgt] output;
                build ru dm
              else general
          | _ => Err ValueError
          end
      | _ => general
      end
  end.

(** ccg_tree.py 519: [Id().tensor] of the first and the second components *)
Definition tensor_all (l : list diagram) : diagram := tensor_list (id []) l.

(** ccg_tree.py 449-522 *)
Fixpoint to_diag_pair (planar : bool) (x : ctree) {struct x} : res (diagram * diagram) :=
  let 'CT s ru t cs := x in
  match ru with
  | LEXICAL =>
      if cty_eqb t PUNCTUATION then Ok (id [], id [])
      else Ok (to_diag (Word (t_text x) (to_grammar t) 0), id (to_grammar t))
  | _ =>
      do this_layer <-
        (match ru with
         | UNARY =>
             if planar then Err ValueError
             else
               do l <- c_left t; do r <- c_right t;
               if c_is_over t then swap (ty_l (to_grammar r)) (to_grammar l)
               else swap (to_grammar r) (ty_r (to_grammar l))
         | _ => apply_rule ru (map t_type cs) (Some t)
         end);
      do ch <- mapR (to_diag_pair planar) cs;
      let default :=
        match ch with
        | [] => Err ValueError
        | _ => do d <- d_then (tensor_all (map snd ch)) this_layer; Ok (tensor_all (map fst ch), d)
        end in
      if planar then
        match ru with
        | BX =>
            do p <- unpack2 ch; let '((words, left_diag), (right_words, right_diag)) := p in
            do c <- unpack2 cs;
            do lt <- c_left t; let lft := to_grammar lt in
            do jt <- c_left (t_type (fst c)); let join := to_grammar jt in
            do rt <- c_right t; let rgt := ty_l (to_grammar rt) in
            do inner <- d_then right_words right_diag;
            do d1 <- d_then left_diag (tensor (tensor (id join) inner) (id rgt));
            do k <- cups join (ty_r join) false;
            do d2 <- d_then d1 (tensor k (id (lft ++ rgt)));
            Ok (words, d2)
        | FX =>
            do p <- unpack2 ch; let '((left_words, left_diag), (words, right_diag)) := p in
            do c <- unpack2 cs;
            do lt <- c_left t; let lft := ty_r (to_grammar lt) in
            do jt <- c_right (t_type (snd c)); let join := to_grammar jt in
            do rt <- c_right t; let rgt := to_grammar rt in
            do inner <- d_then left_words left_diag;
            do d1 <- d_then right_diag (tensor (tensor (id lft) inner) (id join));
            do k <- cups (ty_l join) join false;
            do d2 <- d_then d1 (tensor (id (lft ++ rgt)) k);
            Ok (words, d2)
        | GBX =>
            do p <- unpack2 ch; let '((words, left_diag), (right_words, right_diag)) := p in
            do c <- unpack2 cs;
            do bt <- c_left (t_type (snd c));
            do sp <- split bt (t_type (fst c));
            let '(lft, join, rgt) := sp in
            do inner <- d_then right_words right_diag;
            do k <- cups join (ty_r join) false;
            do mid <- d_then (tensor (id join) inner)
                        (tensor k (id (py_slice (cod inner) (Some (Z.of_nat (List.length join))) None)));
            Ok (words, tensor (tensor (id lft) mid) (id rgt))
        | GFX =>
            do p <- unpack2 ch; let '((left_words, left_diag), (words, right_diag)) := p in
            do c <- unpack2 cs;
            do bt <- c_right (t_type (fst c));
            do sp <- split bt (t_type (snd c));
            let '(lft, join, rgt) := sp in
            do inner <- d_then left_words left_diag;
            do k <- cups (ty_l join) join false;
            do mid <- d_then (tensor inner (id join))
                        (tensor (id (py_slice (cod inner) None (Some (- Z.of_nat (List.length join))%Z))) k);
            Ok (words, tensor (tensor (id lft) mid) (id rgt))
        | _ => default
        end
      else default
  end.

(** ccg_tree.py 431-447 *)
Definition tree_to_diagram (planar collapse : bool) (x : ctree) : res diagram :=
  do y <- (if collapse then collapse_np x else Ok x);
  do z <- resolved y (t_type y);
  do p <- to_diag_pair planar z;
  d_then (fst p) (snd p).
