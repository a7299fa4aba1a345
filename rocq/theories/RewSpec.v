(** Specification vocabulary for rewriting: which rules are meant for which boxes, equality of
    words up to letter case, how often a word occurs in a collection of diagrams, and the
    expected result of replacing unknown words. *)
From Verif Require Import PyBase TyModel DiagModel DiagSpec FunctorSpec RewModel.
Set Implicit Arguments. Unset Strict Implicit.

(** A simple rule is set up as documented: its template is a well-typed state of the codomain it
    matches, and placeholders stand for words (no inputs).  The other rules have no such data. *)
Definition rule_good (r : rule) : Prop :=
  match r with
  | Simple c t _ _ => typed t [] c /\
      All (fun x => forall y, In y (basics (l_box x)) -> b_name y = PLACEHOLDER -> b_dom y = []) (layers t)
  | _ => True
  end.
(** Simple and coordination rules are meant for boxes without inputs. *)
Definition for_states (r : rule) : Prop := match r with Simple _ _ _ _ | Coordination _ => True | _ => False end.
Definition meant_for (r : rule) (b : box) : Prop := for_states r -> b_dom b = [].

(** equality of words up to letter case *)
Definition same_word (a b : string) : Prop := lower a = lower b.

(** the number of times the word [n] of (unrotated) type [c] ([Some c]) or of any type ([None]) occurs,
    daggered occurrences included *)
Fixpoint is_occurrence (n : string) (c : option ty) (b : box) : Prop :=
  match b with
  | Word m t z => m = n /\ match c with None => True | Some c => rot (- z) t = c end
  | Dagg b' => is_occurrence n c b'
  | _ => False
  end.
Inductive occurs (n : string) (c : option ty) : list box -> nat -> Prop :=
| occurs_nil : occurs n c [] 0
| occurs_yes b bs k : is_occurrence n c b -> occurs n c bs k -> occurs n c (b :: bs) (S k)
| occurs_no b bs k : ~ is_occurrence n c b -> occurs n c bs k -> occurs n c (b :: bs) k.

(** words are unrotated (unless types are ignored) and not daggered *)
Fixpoint no_word (b : box) : Prop := match b with Word _ _ _ => False | Dagg b' => no_word b' | _ => True end.
Definition plain_word (ignore_types : bool) (b : box) : Prop :=
  match b with Word _ _ z => z = 0%Z \/ ignore_types = true | Dagg b' => no_word b' | _ => True end.

(** Boxes of a diagram the unknown-words theorem ranges over: anything but rotated frames and
    daggers other than of boxes and words. *)
Definition flat_box (b : box) : Prop :=
  match b with
  | Dagg (Box _ _ _ _) | Dagg (Word _ _ _) => True
  | Dagg _ => False
  | Frame _ _ _ _ z | DagFrame _ _ _ _ z => z = 0%Z
  | _ => True
  end.
(** [out] is [inp] with exactly the words satisfying [unknown] (a predicate on the word and its unrotated
    type) renamed to [unk], their types and rotations kept *)
Inductive replaced (unknown : string -> ty -> Prop) (unk : string) : box -> box -> Prop :=
| rep_yes n c z : unknown n (rot (-z) c) -> replaced unknown unk (Word n c z) (Word unk c z)
| rep_no n c z : ~ unknown n (rot (-z) c) -> replaced unknown unk (Word n c z) (Word n c z)
| rep_dagg b b' : replaced unknown unk b b' -> replaced unknown unk (Dagg b) (Dagg b')
| rep_other b : (match b with Word _ _ _ | Dagg _ => False | _ => True end) -> replaced unknown unk b b.
(** layer by layer *)
Definition replaced_diagram unknown unk (d d' : diagram) : Prop :=
  dom d' = dom d /\ cod d' = cod d /\
  Forall2 (fun x y : layer => fst (fst y) = fst (fst x) /\ snd y = snd x /\ replaced unknown unk (l_box x) (l_box y))
          (layers d) (layers d').

(** ** Histories of a rewriter *)
(** the boxes of a diagram as the rules see them (unrotated, under daggers) *)
Definition seen_boxes (d : diagram) : list box := flat_map (fun x => basics (l_box x)) (layers d).
(** what a history should return: each call rewrites with the rules in force at that moment *)
Fixpoint expected (rs : list rule) (h : list rw_op) : list (res diagram) :=
  match h with
  | [] => []
  | OAdd args :: h' => let '(r, rs') := add_rules args rs in rmap (fun _ => id []) r :: expected rs' h'
  | OCall d :: h' => rewrite rs d :: expected rs h'
  end.
(** at every [add_rules], each box already rewritten is either matched by an older rule or not
    matched by the newer ones *)
Fixpoint no_retroactive_rule (rs : list rule) (seen : list box) (h : list rw_op) : Prop :=
  match h with
  | [] => True
  | OAdd args :: h' =>
      let rs' := snd (add_rules args rs) in
      (forall b, In b seen -> (exists r, In r rs /\ rule_matches r b = true) \/
                              (forall r, In r rs' -> In r rs \/ rule_matches r b = false)) /\
      no_retroactive_rule rs' seen h'
  | OCall d :: h' => no_retroactive_rule rs (seen_boxes d ++ seen) h'
  end.

(** the word [n] of type [c] occurs fewer than [min_freq] times in [ds] *)
Definition rarely_occurs (ds : list diagram) (min_freq : Z) (ignore_types : bool) (n : string) (c : ty) : Prop :=
  exists k, occurs n (if ignore_types then None else Some c) (map l_box (flat_map layers ds)) k /\ (Z.of_nat k < min_freq)%Z.

(** [fill name t]: the template [t] with each placeholder word, rotated or daggered or not, renamed to [name] *)
Fixpoint fill_box (name : string) (b : box) : box :=
  match b with
  | Word n c z => Word (if String.eqb n "<PLACEHOLDER>"%string then name else n) c z
  | Dagg b' => Dagg (fill_box name b')
  | _ => b
  end.
Definition fill (name : string) (t : diagram) : diagram :=
  Diag (dom t) (cod t) (map (fun x : layer => (fst (fst x), fill_box name (l_box x), snd x)) (layers t)).
(** only words carry the placeholder's name *)
Fixpoint placeholder_word (b : box) : Prop :=
  match b with
  | Box n _ _ _ | Frame n _ _ _ _ | DagFrame n _ _ _ _ => n <> "<PLACEHOLDER>"%string
  | Dagg b' => placeholder_word b'
  | _ => True
  end.
