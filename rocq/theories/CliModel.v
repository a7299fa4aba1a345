(** Model of the command line interface (lambeq/cli.py).
    Not modelled: argparse itself (its result is the starting point), YAML (what is loaded is what was stored) and spaCy.  The parsers, the rewriter, the ansätze and the
    drawing are functions that may raise; what is written is a list of effects.  [os.path.join] is that of a directory name with no slash at its end. *)
From Coq Require Import ZArith Ascii.
From Verif Require Import PyBase.
Open Scope string_scope. Set Implicit Arguments. Unset Strict Implicit.

(** 161-341: the namespace; the options are lists of keys and values *)
Record args := Args {
  input_sentence : string; mode : option string; input_file : option string; output_format : option string; image_format : option string;
  output_options : list (string * Z); output_file : option string; output_dir : option string; parser : option string; tokenise : bool; split_sentences : bool;
  reader : option string; root_categories : option (list string); rewrite_rules : option (list string); ansatz : option string; ansatz_options : list (string * Z);
  store_args : option string; load_args : option string }.
(** what argparse gives for an empty command line *)
Definition no_args : args := Args "" (Some "string-diagram") None None None [] None None None false false None None None None [] None None.

(** 94-116, 142-158: [key, value = argument.split('=')], then the type of the key; [int_of] is Python's [int] of a string.
    argparse first asks whether the argument is among the choices ([__contains__]) and exits with a message where the KeyError and the ValueError of the number are here. *)
Fixpoint split_eq (s : string) : list string :=
  match s with
  | EmptyString => [""]
  | String c s' => let r := split_eq s' in
      if (c =? "=")%char then "" :: r else match r with x :: r' => String c x :: r' | [] => [String c ""] end
  end.
Section Options.
Variable int_of : string -> option Z.
Definition choices := list (string * option Z).
Fixpoint look {V} (k : string) (l : list (string * V)) : option V := match l with [] => None | (k', v) :: l' => if k =? k' then Some v else look k l' end.
Definition parse_option (cs : choices) (s : string) : res (string * Z) :=
  match split_eq s with
  | [k; v] => match look k cs with None => Err KeyError | Some _ => match int_of v with Some z => Ok (k, z) | None => Err ValueError end end
  | _ => Err ValueError
  end.
(** a dictionary with its keys in order of insertion *)
Fixpoint set_key {V} (k : string) (v : V) (l : list (string * V)) : list (string * V) :=
  match l with [] => [(k, v)] | (k', v') :: l' => if k =? k' then (k, v) :: l' else (k', v') :: set_key k v l' end.
Definition parse_options (cs : choices) (values : list string) : res (list (string * Z)) :=
  do parsed <- foldM (fun acc s => do kv <- parse_option cs s; Ok (set_key (fst kv) (snd kv) acc)) values [];
  Ok (fold_left (fun acc (kv : string * option Z) => match look (fst kv) acc, snd kv with None, Some v => set_key (fst kv) v acc | _, _ => acc end) cs parsed).
End Options.
(** 308-313 *)
Definition ansatz_choices : choices := [("dim_n", Some 2%Z); ("dim_s", Some 2%Z); ("n_layers", Some 2%Z); ("n_single_qubit_params", Some 3%Z); ("bond_dim", Some 3%Z); ("max_order", Some 3%Z)].

(** 344-393 *)
Definition is_some {X} (o : option X) : bool := match o with Some _ => true | None => false end.
Definition among (o : option string) (l : list string) : bool := match o with Some s => existsb (String.eqb s) l | None => false end.
Definition validate_args (a : args) : res unit :=
  if negb (input_sentence a =? "") && is_some (input_file a) then Err ValueError else
  if negb (is_some (output_dir a)) && negb (is_some (output_file a)) && negb (among (output_format a) ["text-ascii"; "text-unicode"]) then Err ValueError else
  if is_some (parser a) && is_some (reader a) then Err ValueError else
  if negb (match output_options a with [] => true | _ => false end) && negb (among (output_format a) ["image"]) then Err ValueError else
  if is_some (output_dir a) && negb (among (output_format a) ["image"]) then Err ValueError else
  if among (mode a) ["ccg"] && (is_some (ansatz a) || is_some (reader a) || is_some (rewrite_rules a)) then Err ValueError else
  if among (mode a) ["ccg"] && among (output_format a) ["image"] then Err ValueError else
  if among (mode a) ["ccg"] && is_some (parser a) && negb (among (parser a) ["bobcat"]) then Err ValueError else
  if among (output_format a) ["text-ascii"; "text-unicode"; "json"] && among (mode a) ["string-diagram"; "pregroups"]
     && (is_some (ansatz a) || is_some (rewrite_rules a) || among (reader a) ["spiders"; "stairs"; "tree"]) then Err ValueError else
  Ok tt.

(** 612-623: a value that is falsy is replaced *)
Definition or_str (o p : option string) : option string := match o with None | Some "" => p | _ => o end.
Definition or_list {X} (l m : list X) : list X := match l with [] => m | _ => l end.
Definition or_olist {X} (l m : option (list X)) : option (list X) := match l with None | Some [] => m | _ => l end.
Definition loaded (a s : args) : args :=
  Args (if input_sentence a =? "" then input_sentence s else input_sentence a) (or_str (mode a) (mode s)) (or_str (input_file a) (input_file s)) (or_str (output_format a) (output_format s))
    (or_str (image_format a) (image_format s)) (or_list (output_options a) (output_options s)) (or_str (output_file a) (output_file s)) (or_str (output_dir a) (output_dir s))
    (or_str (parser a) (parser s)) (tokenise a || tokenise s) (split_sentences a || split_sentences s) (or_str (reader a) (reader s)) (or_olist (root_categories a) (root_categories s))
    (or_olist (rewrite_rules a) (rewrite_rules s)) (or_str (ansatz a) (ansatz s)) (or_list (ansatz_options a) (ansatz_options s)) (or_str (store_args a) (store_args s)) (or_str (load_args a) (load_args s)).
Definition defaulted (a : args) : args :=
  Args (input_sentence a) (or_str (mode a) (Some "string-diagram")) (input_file a) (or_str (output_format a) (Some "text-unicode")) (or_str (image_format a) (Some "png"))
    (output_options a) (output_file a) (output_dir a) (parser a) (tokenise a) (split_sentences a) (reader a) (root_categories a) (rewrite_rules a) (ansatz a) (ansatz_options a) (store_args a) (load_args a).
(** 625-628: what is stored *)
Definition to_store (a : args) : args :=
  Args (input_sentence a) (mode a) (input_file a) (output_format a) (image_format a) (output_options a) (output_file a) (output_dir a) (parser a) (tokenise a) (split_sentences a)
    (reader a) (root_categories a) (rewrite_rules a) (ansatz a) (ansatz_options a) None (load_args a).
(** 613-624: the arguments the modules are given; [saved]: the content of the file that is named *)
Definition effective (a : args) (saved : string -> res args) : res args :=
  do b <- match load_args a with None => Ok a | Some f => do s <- saved f; Ok (loaded a s) end;
  let c := defaulted b in do _ <- validate_args c; Ok c.

(** ** Numbers and file names *)
Definition digit (n : nat) : ascii := ascii_of_nat (48 + n).
Fixpoint str_fuel (f n : nat) : string := match f with O => "" | S f' => (if (n <? 10)%nat then "" else str_fuel f' (n / 10)) ++ String (digit (n mod 10)) "" end.
Definition str_nat (n : nat) : string := str_fuel (S n) n.
Fixpoint zeros (k : nat) : string := match k with O => "" | S k' => String "0" (zeros k') end.
Definition zfill (w : nat) (s : string) : string := zeros (w - String.length s) ++ s.
(** [os.path.splitext]: what comes after the last dot of the last component, unless there are only dots before it *)
Fixpoint has_char (c : ascii) (s : string) : bool := match s with EmptyString => false | String d s' => (c =? d)%char || has_char c s' end.
Fixpoint split_dot (started : bool) (s : string) : string * string :=
  match s with
  | EmptyString => ("", "")
  | String c s' =>
      if (c =? "/")%char then let r := split_dot false s' in (String c (fst r), snd r)
      else if (c =? ".")%char && started && negb (has_char "." s') && negb (has_char "/" s') then ("", s)
      else let r := split_dot (started || negb (c =? ".")%char) s' in (String c (fst r), snd r)
  end.
Definition splitext (s : string) : string * string := split_dot false s.
(** 67-71 *)
Definition image_types : list string := ["png"; "pdf"; "jpeg"; "jpg"; "eps"; "pgf"; "ps"; "raw"; "rgba"; "svg"; "svgz"; "tif"; "tiff"].
(** 580-589 *)
Definition image_name (dir fmt : string) (n i : nat) : string := dir ++ "/" ++ "diagram_" ++ zfill (String.length (str_nat n)) (str_nat (i + 1)) ++ "." ++ fmt.
Definition image_file (file fmt : string) : string := let e := splitext file in if existsb (String.eqb (snd e)) image_types then file else fst e ++ "." ++ fmt.

(** ** The modules *)
Section Run.
Variable X : Type.
Inductive content := CText (s : string) | CPickle (l : list X) | CJson (l : list X) | CImage (x : X).
Inductive effect := Print (s : string) | Write (f : string) (c : content) | MkDir (d : string).
(** the parts of the program that are not modelled *)
Record parts := Parts {
  sentences : args -> res (list string);                   (** 405-437: reading, splitting and tokenising *)
  parse : args -> list string -> res (list (option X));    (** 438-467: the reader or the parser *)
  tidy : X -> res X;                                       (** 458, 463: [without_trivial_unary_rules], or normal form without swaps *)
  apply_rules : list string -> X -> res X;                 (** 480-481 *)
  apply_ansatz : string -> Z -> Z -> list (string * Z) -> X -> res X;
  is_pregroup : X -> bool; pregroup_nf : X -> res X; normal : X -> res X;
  show : bool -> X -> res string; draw : X -> res unit }.
Variable P : parts.
(** 419-468 *)
Definition parser_module (a : args) (ss : list string) : res (list X) :=
  do r <- parse P a ss; let xs := List.concat (map (fun o => match o with Some x => [x] | None => [] end) r) in
  if negb (is_some (reader a)) && among (mode a) ["ccg"; "pregroups"] then mapM (tidy P) xs else Ok xs.
(** 471-481 *)
Definition rewriter_module (a : args) (xs : list X) : res (list X) := match rewrite_rules a with None => Ok xs | Some rs => mapM (apply_rules P rs) xs end.
(** 484-513 *)
Definition ansatz_module (a : args) (xs : list X) : res (list X) :=
  match ansatz a with
  | None => Ok xs
  | Some s => match look "dim_n" (ansatz_options a), look "dim_s" (ansatz_options a) with
              | Some n, Some k => mapM (apply_ansatz P s n k (ansatz_options a)) xs
              | _, _ => Err KeyError
              end
  end.
Fixpoint join_lines (l : list string) : string := match l with [] => "" | [s] => s | s :: l' => s ++ String "010" (join_lines l') end.
Definition put_text (a : args) (s : string) : list effect := match output_file a with Some f => [Write f (CText s)] | None => [Print s] end.
Definition use_ascii (a : args) : bool := among (output_format a) ["text-ascii"].
(** 516-535; [open(None)] raises TypeError *)
Definition tree_save (a : args) (xs : list X) : res (list effect) :=
  if among (output_format a) ["json"] then match output_file a with Some f => Ok [Write f (CJson xs)] | None => Err TypeError end
  else if among (output_format a) ["text-ascii"; "text-unicode"] then do ls <- mapM (show P (use_ascii a)) xs; Ok (put_text a (join_lines ls))
  else if among (output_format a) ["pickle"] then Ok (match output_file a with Some f => [Write f (CPickle xs)] | None => [] end)
  else Ok [].
(** 544-554 *)
Definition as_pregroup (x : X) : res X := if is_pregroup P x then Ok x else do y <- pregroup_nf P x; if is_pregroup P y then Ok y else Err ValueError.
(** 605-609 *)
Definition drawn (x : X) : res X :=
  match (do y <- normal P x; do _ <- draw P y; Ok y) with
  | Ok y => Ok y
  | Err ValueError | Err NotImplementedError => do _ <- draw P x; Ok x
  | Err e => Err e
  end.
(** 538-609 *)
Definition diagram_save (a : args) (xs : list X) : res (list effect) :=
  if among (output_format a) ["text-ascii"; "text-unicode"] then do ys <- mapM as_pregroup xs; do ls <- mapM (show P (use_ascii a)) ys; Ok (put_text a (join_lines ls))
  else if among (output_format a) ["json"] then Err NotImplementedError
  else if among (output_format a) ["pickle"] then Ok (match output_file a with Some f => [Write f (CPickle xs)] | None => [] end)
  else if among (output_format a) ["image"] then
    let fmt := match image_format a with Some s => s | None => "None" end in
    match output_dir a with
    | Some d => do ws <- mapM (fun ix => do y <- drawn (snd ix); Ok (Write (image_name d fmt (List.length xs) (fst ix)) (CImage y))) (combine (seq 0 (List.length xs)) xs); Ok (MkDir d :: ws)
    | None => match xs with
              | [] => Ok []
              | [x] => match output_file a with None => Err TypeError | Some f => do y <- drawn x; Ok [Write (image_file f fmt) (CImage y)] end
              | _ => Err ValueError
              end
    end
  else Ok [].
(** 631-640 *)
Definition run (a : args) : res (list effect) :=
  do ss <- sentences P a; do xs <- parser_module a ss; do ys <- rewriter_module a xs; do zs <- ansatz_module a ys;
  if among (mode a) ["string-diagram"; "pregroups"] then diagram_save a zs else tree_save a zs.
End Run.
