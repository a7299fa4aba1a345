(** Vocabulary for the readers. *)
From Coq Require Import Ascii.
From Verif Require Import PyBase TyModel DiagModel DiagSpec CCGModel CCGSpec ReaderModel.
Open Scope string_scope. Set Implicit Arguments. Unset Strict Implicit.
(** trees whose childless nodes are exactly the words *)
Inductive wordy : ctree -> Prop :=
| W_leaf s t : wordy (CT s LEXICAL t [])
| W_node s r t cs : r <> LEXICAL -> cs <> [] -> Forall wordy cs -> wordy (CT s r t cs).
(** the nodes in post-order *)
Fixpoint postorder (x : ctree) : list ctree := let 'CT _ _ _ cs := x in (List.concat (map postorder cs) ++ [x])%list.
(** the box of a node: a word, or a combining box with one input per child *)
Definition node_box (m : tmode) (w : ty) (x : ctree) : box :=
  match t_children x with [] => Word (t_text x) w 0 | cs => Box (node_name m x) (List.concat (map (fun _ => w) cs)) w 0 end.
(** boxes act on the right-most wires only: the diagram is a program for a stack machine, determined by its sequence of boxes *)
Definition rightmost (d : diagram) : Prop := Forall (fun x => snd x = []) (layers d).
(** splitting at white space *)
Fixpoint all_chars (p : ascii -> bool) (s : string) : bool := match s with EmptyString => true | String c r => p c && all_chars p r end.
Definition blank (s : string) : Prop := all_chars is_space s = true.
Definition token (s : string) : Prop := s <> "" /\ all_chars (fun c => negb (is_space c)) s = true.
(** [separated s toks]: [s] consists of the tokens in order with white space around them, at least one character between any two *)
Inductive separated : string -> list string -> Prop :=
| Sep_nil b : blank b -> separated b []
| Sep_last b t b' : blank b -> token t -> blank b' -> separated (b ++ t ++ b') [t]
| Sep_cons b t c b' s u l : blank b -> token t -> is_space c = true -> blank b' -> separated s (u :: l) -> separated (b ++ t ++ String c (b' ++ s)) (t :: u :: l).
(** the first [k] boxes are appended on the right of what is there, the later ones act on the left-most wires; with the domain and the list of boxes this fixes the diagram *)
Definition words_then_left (k : nat) (d : diagram) : Prop :=
  Forall (fun x => snd x = []) (firstn k (layers d)) /\ Forall (fun x => fst (fst x) = []) (skipn k (layers d)).
(** paths from a node down to a leaf, and the length of the longest *)
Inductive path : ctree -> nat -> Prop :=
| P_leaf s r t : path (CT s r t []) 0
| P_node s r t cs c n : In c cs -> path c n -> path (CT s r t cs) (S n).
Definition longest_path (x : ctree) (h : nat) : Prop := path x h /\ forall n, path x n -> n <= h.
