(** Model of [lambeq/text2diagram/ccgbank_parser.py] (68-445).
    Simplifications: characters below 256; a position is represented by the remaining text; a section is the list of its files, a file the list of its lines;
    every exception caught by [except Exception] in [sentences2trees] is one value; [map_atomic] runs after the category has been parsed instead of during
    (both orders raise on the same categories); the [metadata] of trees and progress output are left out; recursion takes fuel (proved sufficient). *)
From Coq Require Import Ascii.
From Verif Require Import PyBase CCGModel ReaderModel.
Open Scope string_scope. Set Implicit Arguments. Unset Strict Implicit.
Notation chars := (list ascii).
Notation str := list_ascii_of_string.
Definition nonspace (c : ascii) : bool := negb (is_space c).
Definition is_digit (c : ascii) : bool := let n := nat_of_ascii c in ((48 <=? n) && (n <=? 57))%nat.
Definition is_lower (c : ascii) : bool := let n := nat_of_ascii c in ((97 <=? n) && (n <=? 122))%nat.
(** the longest prefix of [p]-characters, and the rest *)
Fixpoint span (p : ascii -> bool) (s : chars) : chars * chars :=
  match s with c :: s' => if p c then let '(a, b) := span p s' in (c :: a, b) else ([], s) | [] => ([], []) end.
(** regular expression [p+] where what follows cannot start with a [p]-character *)
Definition plus (p : ascii -> bool) (s : chars) : option (chars * chars) := match span p s with ([], _) => None | x => Some x end.
Definition lit (c : ascii) (s : chars) : option chars := match s with x :: s' => if Ascii.eqb x c then Some s' else None | [] => None end.
Notation "'let?' x := e 'in' f" := (match e with Some x => f | None => None end) (at level 200, x pattern, f at level 200).
(** the last occurrence of [">)"] *)
Fixpoint last_close (w : chars) : option (chars * chars) :=
  match w with
  | [] => None
  | c :: w' => match last_close w' with
               | Some (p, q) => Some (c :: p, q)
               | None => match w' with d :: q => if Ascii.eqb c ">" && Ascii.eqb d ")" then Some ([], q) else None | [] => None end
               end
  end.
(** [\S+>\)]: greedy with backtracking: the last [">)"] of the run of non-spaces, not at its very start *)
Definition close_leaf (s : chars) : option (chars * chars) :=
  let '(w, r) := span nonspace s in
  match w with [] => None | c :: w' => let? (p, q) := last_close w' in Some (c :: p, (q ++ r)%list) end.
Definition skip_spaces (s : chars) : chars := snd (span is_space s).
(** 80-97 [tree_regex]; the result is (category, word if a leaf, text after the match) *)
Definition match_node (s : chars) : option (chars * option chars * chars) :=
  let? s := lit "(" s in let? s := lit "<" s in
  match s with
  | k :: s =>
      if Ascii.eqb k "L" then
        let? (_, s) := plus is_space s in let? (cat, s) := plus nonspace s in let? (_, s) := plus is_space s in
        let? (_, s) := plus nonspace s in let? (_, s) := plus is_space s in
        let? (_, s) := plus nonspace s in let? (_, s) := plus is_space s in
        let? (word, s) := plus nonspace s in let? (_, s) := plus is_space s in
        let? (_, s) := close_leaf s in Some (cat, Some word, skip_spaces s)
      else if Ascii.eqb k "T" then
        let? (_, s) := plus is_space s in let? (cat, s) := plus nonspace s in let? (_, s) := plus is_space s in
        match s with
        | h :: s => if Ascii.eqb h "0" || Ascii.eqb h "1" then
            let? (_, s) := plus is_space s in let? (_, s) := plus is_digit s in let? s := lit ">" s in Some (cat, None, skip_spaces s)
          else None
        | [] => None
        end
      else None
  | [] => None
  end.
(** 72-73 [ccg_type_regex], 429-445 [_map_atomic_type] *)
Fixpoint split_feature (s : chars) : chars * chars := match s with c :: s' => if Ascii.eqb c "[" then ([], s) else let '(a, b) := split_feature s' in (c :: a, b) | [] => ([], []) end.
Definition feature_ok (f : chars) : bool :=
  match f with
  | [] => true
  | _ :: f' => match span is_lower f' with (_ :: _, [c]) => Ascii.eqb c "]" | _ => false end
  end.
Definition map_atomic (cat : string) : res string :=
  let '(b, f) := split_feature (str cat) in let base := string_of_list_ascii b in
  if feature_ok f && (base =? "N")%string then Ok "n"
  else if feature_ok f && (base =? "NP")%string then Ok "np"
  else if feature_ok f && (base =? "S")%string then Ok "s"
  else if feature_ok f && (base =? "PP")%string then Ok "p"
  else if (cat =? "conj")%string then Ok "conj"
  else if existsb (String.eqb cat) ["LRB"; "RRB"; ","; "."; ":"; ";"] then Ok "punc"
  else Err OtherError.
Fixpoint map_atoms (t : cty) : res cty :=
  match t with
  | CEmpty => Err OtherError (* not produced by the parser *)
  | CAtom a => rmap CAtom (map_atomic a)
  | CSlash r d a => do r' <- map_atoms r; do a' <- map_atoms a; Ok (CSlash r' d a')
  end.
(** 393-400 *)
Definition read_cat (cat : chars) : res cty :=
  let s := string_of_list_ascii cat in
  let s := if (s =? "((S[b]\NP)/NP)/")%string then "(S[b]\NP)/NP" else s in
  match parse s with Parsed t => map_atoms t | _ => Err OtherError end.
(** 99, 404-407 *)
Definition unescape (w : string) : string :=
  if (w =? "-LCB-")%string then "{" else if (w =? "-RCB-")%string then "}" else if (w =? "-LRB-")%string then "(" else if (w =? "-RRB-")%string then ")" else w.
(** 386-427 *)
Section Build.
  Variable build : chars -> res (ctree * chars).
  (** 413-416 *)
  Fixpoint build_children (n : nat) (s : chars) : res (list ctree * chars) :=
    match s with
    | [] => Err IndexError
    | c :: _ =>
        if Ascii.eqb c ")" then Ok ([], s)
        else match n with
             | O => Err OtherError
             | S n' => do p <- build s; let '(x, s') := p in do q <- build_children n' s'; let '(xs, s'') := q in Ok (x :: xs, s'')
             end
    end.
End Build.
Fixpoint build (fuel : nat) (s : chars) : res (ctree * chars) :=
  match fuel with
  | O => Err OtherError
  | S f =>
      match match_node s with
      | None => Err OtherError
      | Some (cat, w, s') =>
          do t <- read_cat cat;
          match w with
          | Some word => do x <- mk_tree (Some (unescape (string_of_list_ascii word))) UNKNOWN t []; Ok (x, s')
          | None =>
              do p <- build_children (build f) (S (List.length s')) s'; let '(xs, s'') := p in
              do ru <- infer_rule (map t_type xs) t;
              do x <- mk_tree None ru t xs; Ok (x, skipn 2 s'')
          end
      end
  end.
(** 369-384, one sentence *)
Definition sentence2tree (suppress : bool) (s : string) : res (option ctree) :=
  match build (S (String.length s)) (str s) with
  | Ok (x, []) => Ok (Some x)
  | Ok (x, _) => if suppress then Ok (Some x) else Err OtherError
  | Err _ => if suppress then Ok None else Err OtherError
  end.
(** 318-384 *)
Definition sentences2trees (tokenised suppress : bool) (l : list string) : res (list (option ctree)) :=
  mapM (fun s => if tokenised then Err ValueError else sentence2tree suppress s) l.
(** 75-78 [id_regex.fullmatch] *)
Definition match_id (line : string) : option string :=
  let? s := lit "I" (str line) in let? s := lit "D" s in let? s := lit "=" s in
  let? (i, _) := plus nonspace s in Some (string_of_list_ascii i).
(** [str.strip] *)
Definition strip (s : string) : string := string_of_list_ascii (rev (skip_spaces (rev (skip_spaces (str s))))).
(** 197-227: the pairs yielded before the end or an exception ([None]: the generator ended normally).
    [next(f)] at the end of the file raises StopIteration, which a generator turns into RuntimeError. *)
Fixpoint file_gen (suppress : bool) (ls : list string) : list (string * option ctree) * option exn :=
  match ls with
  | [] => ([], None)
  | l :: ls' =>
      match match_id l with
      | Some i =>
          match ls' with
          | [] => ([], Some OtherError)
          | t :: ls'' =>
              match sentence2tree false (strip t) with
              | Ok x => let '(r, e) := file_gen suppress ls'' in ((i, x) :: r, e)
              | Err _ => if suppress then let '(r, e) := file_gen suppress ls'' in ((i, None) :: r, e) else ([], Some OtherError)
              end
          end
      | None => if suppress then file_gen suppress ls' else ([], Some OtherError)
      end
  end.
Fixpoint section_gen (suppress : bool) (fs : list (list string)) : list (string * option ctree) * option exn :=
  match fs with
  | [] => ([], None)
  | f :: fs' => match file_gen suppress f with (r, None) => let '(r', e) := section_gen suppress fs' in ((r ++ r')%list, e) | x => x end
  end.
