(** Model of batch parsing: [ModelBasedReader.validate_sentence_batch] (lambeq/text2diagram/model_based_reader/base.py 136-190), [Tagger.__call__] and [get_chart_spans]/[idx2span]/[span2idx] (lambeq/bobcat/tagger.py 42-75, 325-413),
    [BobcatParser.sentences2trees] (model_based_reader/bobcat_parser.py 199-271), [OncillaParser._sentences2pregrouptrees] (model_based_reader/oncilla_parser.py 153-218), [WebParser.sentences2trees] (web_parser.py 76-169),
    [DepCCGParser.sentences2trees] (depccg_parser.py 211-291), [CCGParser.sentences2diagrams] and [sentence2diagram] (ccg_parser.py 126-255).
    Simplifications: the neural models, the chart parser, the web service and depccg are arbitrary functions; progress reporting and the verbosity check are left out; strings are sequences of characters below 256. *)
From Verif Require Import PyBase ReaderModel.
Open Scope string_scope. Set Implicit Arguments. Unset Strict Implicit.

(** a sentence as the user gives it *)
Inductive input := Str (s : string) | Toks (l : list string).
Definition sentence := list string.
(** core/utils.py 32-46: type checks of a batch *)
Definition as_toks (x : input) : res sentence := match x with Toks l => Ok l | Str _ => Err ValueError end.
Definition as_str (x : input) : res string := match x with Str s => Ok s | Toks _ => Err ValueError end.
(** [del l[i]] and [l.insert(i, x)] for natural [i] *)
Definition del_at {A} (l : list A) (i : nat) : list A := (firstn i l ++ skipn (S i) l)%list.
Definition insert_at {A} (l : list A) (i : nat) (x : A) : list A := (firstn i l ++ x :: skipn i l)%list.
(** base.py 177-186 (the same loop in web_parser.py 133-142 and depccg_parser.py 263-272): positions of the empty entries *)
Fixpoint empties {A} (blank : A -> bool) (suppress : bool) (i : nat) (l : list A) : res (list nat) :=
  match l with
  | [] => Ok []
  | s :: l' => if blank s then (if suppress then rmap (cons i) (empties blank suppress (S i) l') else Err ValueError) else empties blank suppress (S i) l'
  end.
Definition no_tokens (s : sentence) : bool := match s with [] => true | _ => false end.
(** [for i in reversed(empty_indices): del ...] *)
Definition drop_all {A} (l : list A) (is_ : list nat) : list A := fold_left del_at (rev is_) l.
(** [for i in empty_indices: trees.insert(i, None)] *)
Definition put_back {A} (l : list (option A)) (is_ : list nat) : list (option A) := fold_left (fun l i => insert_at l i None) is_ l.
(** base.py 136-190 *)
Definition validate (tokenised suppress : bool) (xs : list input) : res (list sentence * list nat) :=
  do ss <- (if tokenised then mapM as_toks xs else rmap (map py_split) (mapM as_str xs));
  do es <- empties no_tokens suppress 0 ss;
  Ok (drop_all ss es, es).

(** tagger.py 393-413: [tag] is the neural part of [parse]; its results are zipped with the inputs (389-391) *)
Section Tagger.
  Variables (G : Type) (tag : list sentence -> res (list G)).
  Definition tag_batch (b : list sentence) : res (list (sentence * G)) := rmap (combine b) (tag b).
  (** [for i in range(0, len(inputs), batch_size)] *)
  Fixpoint tag_from (fuel i bs : nat) (inputs : list sentence) (out : list (sentence * G)) : res (list (sentence * G)) :=
    match fuel with
    | O => Ok out
    | S f => if (i <? List.length inputs)%nat then do b <- tag_batch (firstn bs (skipn i inputs)); tag_from f (i + bs) bs inputs (out ++ b)%list else Ok out
    end.
  Definition tag_all (bs : nat) (inputs : list sentence) : res (list (sentence * G)) := tag_from (S (List.length inputs)) 0 bs inputs [].
End Tagger.

Section Parsers.
  Variables (T D G J : Type).
  (** one entry of the result under [suppress_exceptions] *)
  Definition attempt {A B} (suppress : bool) (e : exn) (f : A -> res B) (x : A) : res (option B) := match f x with Ok t => Ok (Some t) | Err _ => if suppress then Ok None else Err e end.
  (** bobcat_parser.py 199-271; [parse1] is [_prepare_sentence], the chart parser and [_build_ccgtree]; the tagger is called outside the [try] *)
  Definition bobcat_trees (tag : list sentence -> res (list G)) (parse1 : sentence * G -> res T) (bs : nat) (tokenised suppress : bool) (xs : list input) : res (list (option T)) :=
    do (v : list sentence * list nat) <- validate tokenised suppress xs;
    do ts <- match fst v with [] => Ok [] | _ => do gs <- tag_all tag bs (fst v); mapM (attempt suppress OtherError parse1) gs end;
    Ok (put_back ts (snd v)).
  (** oncilla_parser.py 153-218: [pred] is the model and [generate_tree], giving the list of roots; a final full stop is removed first *)
  Definition drop_stop (s : sentence) : sentence := match rev s with w :: s' => if w =? "." then rev s' else s | [] => s end.
  Definition oncilla1 (pred : sentence -> res (list T)) (fix_cycles : T -> T) (s : sentence) : res T :=
    do rs <- pred (drop_stop s); match rs with [r] => Ok (fix_cycles r) | _ => Err OtherError end.
  Definition oncilla_trees (pred : sentence -> res (list T)) (fix_cycles : T -> T) (tokenised suppress : bool) (xs : list input) : res (list (option T)) :=
    do (v : list sentence * list nat) <- validate tokenised suppress xs;
    do ts <- mapM (attempt suppress OtherError (oncilla1 pred fix_cycles)) (fst v);
    Ok (put_back ts (snd v)).
  (** web_parser.py 118-169: the request is inside the [try], the conversion of the answer is not *)
  Definition blank_str (s : string) : bool := s =? "".
  Definition web1 (get : string -> res J) (from_json : J -> res T) (suppress : bool) (s : string) : res (option T) :=
    do j <- attempt suppress OtherError get s; match j with None => Ok None | Some j => rmap Some (from_json j) end.
  Definition web_trees (get : string -> res J) (from_json : J -> res T) (tokenised suppress : bool) (xs : list input) : res (list (option T)) :=
    do ss <- (if tokenised then rmap (map (String.concat " ")) (mapM as_toks xs) else rmap (map (fun s => String.concat " " (py_split s))) (mapM as_str xs));
    do es <- empties blank_str suppress 0 ss;
    do ts <- mapM (web1 get from_json suppress) (drop_all ss es);
    Ok (put_back ts es).
  (** depccg_parser.py 211-291: the first parse of a sentence has a finite score or not ([None]); a sentence without parses cannot be unpacked.
      The second result is the caller's list afterwards: with [tokenised] the empty sentences are deleted from it (245-257, 271-272). *)
  Definition dep1 (build : T -> res D) (suppress : bool) (x : list (option T) * sentence) : res (option D) :=
    match fst x with
    | [] => Err ValueError
    | Some t :: _ => rmap Some (build t)
    | None :: _ => if suppress then Ok None else Err OtherError
    end.
  Definition dep_trees (parses : list sentence -> res (list (list (option T)))) (build : T -> res D) (tokenised suppress : bool) (xs : list input) : res (list (option D) * list input) :=
    do ss <- (if tokenised then mapM as_toks xs else rmap (map py_split) (mapM as_str xs));
    do es <- empties no_tokens suppress 0 ss;
    let valid := drop_all ss es in
    do ts <- match valid with [] => Ok [] | _ => do ps <- parses valid; mapM (dep1 build suppress) (combine ps valid) end;
    Ok (put_back ts es, if tokenised then map Toks valid else xs).
  (** ccg_parser.py 173-198 *)
  Definition trees2diagrams (to_diagram : T -> res D) (suppress : bool) (ts : list (option T)) : res (list (option D)) :=
    mapM (fun t => match t with None => Ok None | Some t => match to_diagram t with Ok d => Ok (Some d) | Err e => if suppress then Ok None else Err e end end) ts.
End Parsers.

(** ** tagger.py 42-75: the table of spans, kept between calls *)
Definition span := (nat * nat)%type.
Definition chart_size (n : nat) : nat := n * (n + 1) / 2.
Definition row (e : nat) : list span := map (fun s => (s, e)) (rev (seq 0 (e + 1))).
Definition get_chart_spans (n : nat) (memo : list span) : list span * list span :=
  let size := chart_size n in
  if (size <=? List.length memo)%nat then (firstn size memo, memo)
  else
    let first := match rev memo with [] => 0 | (_, e) :: _ => e + 1 end in
    let memo' := (memo ++ flat_map row (seq first (n - first)))%list in
    (memo', memo').
(** [int((2*i) ** 0.5)] is taken to be the exact integer root *)
Definition idx2span (i : nat) (memo : list span) : res span * list span :=
  let memo' := if (List.length memo <=? i)%nat then snd (get_chart_spans (Nat.sqrt (2 * i) + 1) memo) else memo in
  (match nth_error memo' i with Some x => Ok x | None => Err IndexError end, memo').
Definition span2idx (x y : nat) : Z := Z.of_nat (chart_size (y + 1)) - Z.of_nat x - 1.
(** a history of calls *)
Inductive call := Spans (n : nat) | Idx (i : nat).
Definition after (h : list call) : list span := fold_left (fun m c => match c with Spans n => snd (get_chart_spans n m) | Idx i => snd (idx2span i m) end) h [].

(** ** tagger.py 325-391: choosing tags and spans from the scores. A scored list holds (index, log probability) in the order of [topk]; log probabilities are integers in some unit, [logp] is [math.log(prob_threshold)], [None] when the threshold is 0. *)
Definition scored := (nat * Z)%type.
Definition sc_eqb (a b : scored) : bool := (fst a =? fst b)%nat && (snd a =? snd b)%Z.
Fixpoint eq_list {A} (f : A -> A -> bool) (a b : list A) : bool := match a, b with [], [] => true | x :: a', y :: b' => f x y && eq_list f a' b' | _, _ => false end.
Definition batch_eqb : list (list (list scored)) -> list (list (list scored)) -> bool := eq_list (eq_list (eq_list sc_eqb)).
(** 370-374 *)
Definition threshold (relative : bool) (logp : option Z) (xs : list scored) : option Z := match logp with None => None | Some l => Some ((if relative then match xs with [] => 0 | x :: _ => snd x end else 0) + l)%Z end.
Definition below (s : Z) (t : option Z) : bool := match t with None => false | Some t => (s <? t)%Z end.
(** 375-379; [null] tells whether index 0 is kept, given the output so far *)
Fixpoint keep (null : list scored -> bool) (t : option Z) (xs : list scored) (out : list scored) : list scored :=
  match xs with
  | [] => out
  | x :: xs' => if below (snd x) t then out else if negb (fst x =? 0)%nat || null out then keep null t xs' (out ++ [x])%list else keep null t xs' out
  end.
(** 361-379; [null] is given the batch output so far: [output_batch == tag_output] compares lists *)
Definition keep_sent (null : list (list (list scored)) -> bool) (relative : bool) (logp : option Z) (done : list (list (list scored))) (rows : list (list scored)) : list (list scored) :=
  fold_left (fun sent xs => (sent ++ [keep (fun out => null (done ++ [sent ++ [out]])) (threshold relative logp xs) xs []])%list) rows [].
Definition keep_batch (null : list (list (list scored)) -> bool) (relative : bool) (logp : option Z) (b : list (nat * list (list scored))) : list (list (list scored)) :=
  fold_left (fun done x => (done ++ [keep_sent null relative logp done (firstn (fst x) (snd x))])%list) b [].
Record settings := Settings { rel_tag : bool; logp_tag : option Z; rel_span : bool; logp_span : option Z }.
(** 383-391; the table of spans is threaded through *)
Fixpoint number_spans (i : nat) (outs : list (list scored)) (memo : list span) : res (list (span * list scored) * list span) :=
  match outs with
  | [] => Ok ([], memo)
  | [] :: outs' => number_spans (S i) outs' memo
  | o :: outs' => let '(r, m) := idx2span i memo in do sp <- r; do (y : list (span * list scored) * list span) <- number_spans (S i) outs' m; Ok ((sp, o) :: fst y, snd y)
  end.
Fixpoint number_all (bs : list (list (list scored))) (memo : list span) : res (list (list (span * list scored)) * list span) :=
  match bs with [] => Ok ([], memo) | b :: bs' => do (x : list (span * list scored) * list span) <- number_spans 0 b memo; do (y : list (list (span * list scored)) * list span) <- number_all bs' (snd x); Ok (fst x :: fst y, snd y) end.
Definition tagger_parse (st : settings) (inputs : list sentence) (tag_scores span_scores : list (list (list scored))) (memo : list span) : res (list (sentence * list (list scored) * list (span * list scored)) * list span) :=
  let tags := keep_batch (fun _ => true) (rel_tag st) (logp_tag st) (combine (map (@List.length string) inputs) tag_scores) in
  let spans := keep_batch (fun b => batch_eqb b tags) (rel_span st) (logp_span st) (combine (map (fun s => chart_size (List.length s)) inputs) span_scores) in
  do (x : list (list (span * list scored)) * list span) <- number_all spans memo;
  Ok (combine (combine inputs tags) (fst x), snd x).
