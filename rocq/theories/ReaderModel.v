(** Model of the readers: [TreeReader] (lambeq/text2diagram/tree_reader.py 112-176), [LinearReader] (linear_reader.py 29-103), [SpidersReader] (spiders_reader.py 25-48).
    Simplifications: strings are sequences of characters below 256; the parser behind the tree reader is outside the model (its tree is the input);
    a tree's [height] attribute is recomputed (ccg_tree.py 91-94 stores it on construction); the while loop of the linear reader takes fuel, running out is [None]. *)
From Coq Require Import Ascii.
From Verif Require Import PyBase TyModel DiagModel CCGModel AnsatzModel.
Open Scope string_scope. Set Implicit Arguments. Unset Strict Implicit.

(** ** tree_reader.py *)
Inductive tmode := NO_TYPE | RULE_ONLY | RULE_TYPE | HEIGHT.
(** ccg_tree.py 91-94 *)
Fixpoint t_height (x : ctree) : nat := let 'CT _ _ _ cs := x in match cs with [] => 0 | _ => S (list_max (map t_height cs)) end.
(** 148-159 *)
Definition node_name (m : tmode) (x : ctree) : string :=
  match m with
  | NO_TYPE => "UNIBOX"
  | HEIGHT => "layer_" ++ str_nat (t_height x)
  | RULE_ONLY => rule_value (t_rule x)
  | RULE_TYPE => rule_value (t_rule x) ++ "(" ++ String.concat ", " (map (fun c => to_string (t_type c)) (t_children x)) ++ ")"
  end.
(** 139-163 *)
Fixpoint tree2diag (m : tmode) (w : ty) (x : ctree) : res diagram :=
  let 'CT _ ru _ cs := x in
  match ru with
  | LEXICAL => Ok (to_diag (Word (t_text x) w 0))
  | _ => do ch <- mapR (tree2diag m w) cs; d_then (tensor_list (id []) ch) (to_diag (Box (node_name m x) (ty_pow w (List.length cs)) w 0))
  end.
(** 103-137: [None] when an exception is suppressed *)
Definition tree2diagram (m : tmode) (w : ty) (suppress : bool) (x : ctree) : res (option diagram) :=
  match (do y <- resolved x (t_type x); tree2diag m w y) with
  | Ok d => Ok (Some d)
  | Err e => if suppress then Ok None else Err e
  end.

(** ** Sentences *)
(** the argument [sentence]: a string, a list of strings, or something else *)
Inductive sentence_arg := SStr (s : string) | SToks (l : list string) | SOther.
(** [str.isspace] on characters below 256 *)
Definition is_space (c : ascii) : bool :=
  let n := nat_of_ascii c in ((9 <=? n) && (n <=? 13))%nat || ((28 <=? n) && (n <=? 32))%nat || (n =? 133)%nat || (n =? 160)%nat.
(** [str.split()] *)
Fixpoint split_go (cur : string) (s : string) : list string :=
  match s with
  | EmptyString => if (cur =? "")%string then [] else [cur]
  | String c r => if is_space c then (if (cur =? "")%string then split_go "" r else cur :: split_go "" r) else split_go (cur ++ String c "") r
  end.
Definition py_split (s : string) : list string := split_go "" s.
(** linear_reader.py 81-90, spiders_reader.py 31-40 *)
Definition tokens (tokenised : bool) (s : sentence_arg) : res (list string) :=
  if tokenised then match s with SToks l => Ok l | _ => Err ValueError end
  else match s with SStr t => Ok (py_split t) | _ => Err ValueError end.

(** ** linear_reader.py *)
(** 93-95: one turn of the loop; [None] when out of fuel *)
Fixpoint combine_loop (c : diagram) (fuel : nat) (d : diagram) : option (res diagram) :=
  if (1 <? List.length (cod d))%nat then
    match fuel with
    | O => None
    | S f => match d_then d (tensor c (id (py_slice (cod d) (Some (Z.of_nat (List.length (dom c)))) None))) with Ok d' => combine_loop c f d' | Err e => Some (Err e) end
    end
  else Some (Ok d).
(** 91-96 *)
Definition words_diag (w : ty) (start : diagram) (toks : list string) : diagram := tensor_list start (map (fun t => to_diag (Word t w 0)) toks).
Definition linear_reader (c : diagram) (w : ty) (start : diagram) (fuel : nat) (tokenised : bool) (s : sentence_arg) : option (res diagram) :=
  match tokens tokenised s with Err e => Some (Err e) | Ok toks => combine_loop c fuel (words_diag w start toks) end.
(** [AtomicType.SENTENCE] *)
Definition aS : atom := ("s", 0%Z).
(** 99-103; [S >> S] is [S.r @ S] (grammar.py [Ty.__rshift__]) *)
Definition cups_reader := linear_reader (to_diag (Cup aS (rot_atom 1 aS) false)) [rot_atom 1 aS; aS] (to_diag (Word "START" [aS] 0)).
Definition stairs_reader := linear_reader (to_diag (Box "STAIR" [aS; aS] [aS] 0)) [aS] (id []).
(** ** spiders_reader.py 42-43 *)
Definition spiders_reader (tokenised : bool) (s : sentence_arg) : res diagram :=
  do toks <- tokens tokenised s;
  do sp <- spider [aS] (List.length toks) 1;
  d_then (words_diag [aS] (id []) toks) sp.
