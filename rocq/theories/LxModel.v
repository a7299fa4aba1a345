(** Model of reading and writing Bobcat categories: lambeq/bobcat/lexicon.py 150-182 ([_str], [__str__], [__repr__]) and 252-323 ([parse], [_parse] and the
    two regular expressions), on the categories of BobModel.v.
    Simplifications: a position in a string is the rest of the string; [\d] is the ten ASCII digits; a direction is one character. *)
From Coq Require Import Ascii.
From Verif Require Import PyBase BobModel BtModel.
Open Scope string_scope. Set Implicit Arguments. Unset Strict Implicit.

Notation chars := (list ascii).
Definition str (l : chars) : string := string_of_list_ascii l.
Definition unstr (s : string) : chars := list_ascii_of_string s.
(** 259 *)
Definition VARIABLES : chars := unstr "+_YZWVUTRQAB".
Fixpoint index_of (c : ascii) (l : chars) : option nat :=
  match l with [] => None | a :: l' => if Ascii.eqb a c then Some 0 else option_map S (index_of c l') end.
(** 262-264 *)
Definition parse_variable_id (s : chars) : res nat :=
  match s with [c] => match index_of c VARIABLES with Some i => Ok i | None => Err ValueError end | _ => Err AssertionError end.
(** 48-49: the features with a non-empty value *)
Definition FEATURES : list string :=
  ["X"; "adj"; "as"; "asup"; "b"; "bem"; "dcl"; "em"; "expl"; "for"; "frg"; "intj"; "inv"; "nb"; "ng"; "num"; "poss"; "pss"; "pt"; "q"; "qem"; "thr"; "to"; "wq"].
Definition ATOMS : list atomk := [ANone; AN; ANP; AS; APP; AConj; AComma; ASemi; AColon; APeriod; ALqu; ARqu; ALrb; ARrb].
(** [Atom(s)] and [Feature(s)]: fast_int_enum.py [__new__] *)
Definition to_atom (s : chars) : res atomk := match find (fun a => (atom_name a =? str s)%string) ATOMS with Some a => Ok a | None => Err KeyError end.
Definition to_feature (s : chars) : res string := if existsb (fun f => (f =? str s)%string) FEATURES then Ok (str s) else Err KeyError.

(** ** The regular expressions (252-256). Every part after the atom is optional and what follows a repeated class is never in the class, so the
    longest match of each part is the match *)
Fixpoint span (p : ascii -> bool) (l : chars) : chars * chars :=
  match l with [] => ([], []) | c :: l' => if p c then let '(a, b) := span p l' in (c :: a, b) else ([], l) end.
Definition between (a b c : ascii) : bool := (nat_of_ascii a <=? nat_of_ascii c)%nat && (nat_of_ascii c <=? nat_of_ascii b)%nat.
Definition is_upper (c : ascii) : bool := between "A" "Z" c.
Definition is_var (c : ascii) : bool := Ascii.eqb c "_" || is_upper c.
Definition is_feat (c : ascii) : bool := Ascii.eqb c "X" || between "a" "z" c.
Definition is_digit (c : ascii) : bool := between "0" "9" c.
(** an optional group: [open], one or more characters of a class, possibly [star], [close] *)
Definition group (o : ascii) (p : ascii -> bool) (star : bool) (c : ascii) (s : chars) : option chars * chars :=
  match s with
  | a :: s1 =>
      if Ascii.eqb a o then
        let '(v, s2) := span p s1 in
        let s3 := match s2 with b :: s2' => if star && Ascii.eqb b "*" then s2' else s2 | [] => s2 end in
        match v, s3 with _ :: _, b :: s4 => if Ascii.eqb b c then (Some v, s4) else (None, s) | _, _ => (None, s) end
      else (None, s)
  | [] => (None, s)
  end.
Definition match_var := group "{" is_var true "}".
Definition match_slot := group "<" is_digit false ">".
Definition match_feature := group "[" is_feat false "]".
Fixpoint strip (p s : chars) : option chars :=
  match p, s with
  | [], _ => Some s
  | a :: p', c :: s' => if Ascii.eqb a c then strip p' s' else None
  | _ :: _, [] => None
  end.
Definition match_atom (s : chars) : option (chars * chars) :=
  match span is_upper s with
  | (a :: a', rest) => Some (a :: a', rest)
  | ([], _) =>
      match strip (unstr "conj") s with
      | Some rest => Some (unstr "conj", rest)
      | None =>
          match s with
          | c :: rest => if existsb (Ascii.eqb c) (unstr ",.;:") then Some ([c], rest) else None
          | [] => None
          end
      end
  end%char.

(** 299-302, 306-309 *)
Definition to_var (v : option chars) : res nat := match v with Some v => parse_variable_id v | None => Ok 0 end.
Definition to_rel (whole : string) (slots : nat) (sl : option chars) : relation := match sl with Some _ => Some (whole, slots) | None => None end.
(** 280-323. [fuel] bounds the depth of the recursion, which is at most the number of opening brackets *)
Fixpoint parse_ (fuel : nat) (whole : string) (tr slots : nat) (in_result : bool) (s : chars) : res (cat * chars * nat) :=
  match fuel with
  | O => Err OtherError
  | S f =>
      match s with
      | [] => Err IndexError
      | a :: s1 =>
          if Ascii.eqb a "(" then
            do o <- parse_ f whole 0 slots in_result s1;
            let '(lc, s2, slots1) := o in
            match s2 with
            | [] => Err IndexError
            | d :: s3 =>
                do o' <- parse_ f whole 0 (if in_result then S slots1 else slots1) false s3;
                let '(rc, s4, slots2) := o' in
                match s4 with
                | [] => Err IndexError
                | e :: s5 =>
                    if Ascii.eqb e ")" then
                      let '(v, s6) := match_var s5 in
                      let '(sl, s7) := match_slot s6 in
                      do var <- to_var v;
                      Ok (slash lc d rc var (to_rel whole slots2 sl) tr, s7, slots2)
                    else Err AssertionError
                end
            end
          else
            match match_atom s with
            | None => Err AssertionError
            | Some (at_, s2) =>
                let '(ft, s3) := match_feature s2 in
                let '(v, s4) := match_var s3 in
                let '(sl, s5) := match_slot s4 in
                do feature <- match ft with Some x => to_feature x | None => Ok "" end;
                do var <- to_var v;
                do atom <- to_atom at_;
                Ok (At atom feature var (to_rel whole slots sl), s5, slots)
            end
      end
  end.
(** 270-277, without the dictionary *)
Definition parse_whole (s : string) (var : nat) : res (cat * chars * nat) := parse_ (S (List.length (unstr s))) s var 0 true (unstr s).
Definition parse_new (s : string) (var : nat) : res cat :=
  do o <- parse_whole s var;
  match snd (fst o) with
  | [] => Ok (fst (fst o))
  | _ =>
      do o' <- parse_whole ("(" ++ s ++ ")") var;
      match snd (fst o') with [] => Ok (fst (fst o')) | _ => Err AssertionError end
  end.
(** 267-277: with [CATEGORIES] *)
Definition categories := list (string * nat * cat).
Fixpoint lookup (k : string * nat) (d : categories) : option cat :=
  match d with [] => None | (k', c) :: d' => if (fst k =? fst k')%string && (snd k =? snd k')%nat then Some c else lookup k d' end.
Definition parse (d : categories) (s dep : string) : categories * res cat :=
  match parse_variable_id (unstr dep) with
  | Err e => (d, Err e)
  | Ok var =>
      match lookup (s, var) d with
      | Some c => (d, Ok c)
      | None => match parse_new s var with Ok c => ((s, var, c) :: d, Ok c) | Err e => (d, Err e) end
      end
  end.

(** ** Writing *)
Definition ends_with_mark (l : chars) : bool := match rev l with c :: _ => Ascii.eqb c "}" || Ascii.eqb c ">" | [] => false end.
Definition complex (c : cat) : bool := match c with At _ _ _ _ => false | Sl _ _ _ _ _ _ => true end.
(** decimal digits of a number, [fuel] at least the number *)
Fixpoint digits (fuel n : nat) : chars :=
  match fuel with
  | O => []
  | S f => (if (n <? 10)%nat then [] else digits f (n / 10)) ++ [ascii_of_nat (48 + n mod 10)]
  end.
Definition decimal (n : nat) : chars := digits (S n) n.
(** 159-163, 170-176: the marks at the end *)
Definition with_marks (full : bool) (c : cat) (output : chars) (counter : nat) : res (chars * nat) :=
  if full && (negb (c_var c =? 0)%nat || match c_rel c with Some _ => true | None => false end) then
    let output := if complex c then "("%char :: output ++ [")"%char] else output in
    do output' <- (if (c_var c =? 0)%nat then Ok output
                   else match nth_error VARIABLES (c_var c) with Some v => Ok (List.app output ["{"%char; v; "}"%char]) | None => Err IndexError end);
    match c_rel c with
    | Some _ => Ok (List.app output' ("<"%char :: List.app (decimal (S counter)) [">"%char]), S counter)
    | None => Ok (output', counter)
    end
  else Ok (output, counter).
Definition in_brackets (c : cat) (l : chars) : chars := if complex c && negb (ends_with_mark l) then "("%char :: l ++ [")"%char] else l.
(** 150-178 *)
Fixpoint str_ (full : bool) (c : cat) (counter : nat) : res (chars * nat) :=
  match c with
  | At a f _ _ => with_marks full c (unstr (atom_name a) ++ (if (f =? "")%string then [] else "["%char :: unstr f ++ ["]"%char])) counter
  | Sl d r x _ _ _ =>
      do o <- str_ full r counter;
      do o' <- str_ full x (snd o);
      with_marks full c (in_brackets r (fst o) ++ d :: in_brackets x (fst o')) (snd o')
  end.
(** 178-182 *)
Definition c_repr (c : cat) : res string := rmap (fun o => str (fst o)) (str_ true c 0).
Definition c_str (c : cat) : res string := rmap (fun o => str (fst o)) (str_ false c 0).
