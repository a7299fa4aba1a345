(** Properties of batch parsing and of the Bobcat tagger (C80-C82). *)
From Coq Require Import Sorted.
From Verif Require Import PyBase ReaderModel PbModel PbSpec PbFacts PbBatch PbTag.
Open Scope string_scope. Set Implicit Arguments. Unset Strict Implicit.

(** ** C80. The sentences the caller's list stands for: token lists, or strings to be split at white space ([reads], PbSpec.v). [outcome f s] is the result of [f] on [s], [None] if it raises. *)

(** Bobcat. The tagger is any function that gives one score table per sentence of a batch; [parse1] is any parser. With suppression every sentence has its entry, at its own position: [None] if it is empty, else the outcome of parsing it with the scores the tagger gave to that very sentence. *)
Theorem C80_bobcat_suppressed : forall (T G : Type) (tag : list sentence -> res (list G)) (parse1 : sentence * G -> res T) (bs : nat) tokenised xs ss, (0 < bs)%nat -> (forall b, exists gs, tag b = Ok gs /\ List.length gs = List.length b) -> reads tokenised xs ss ->
  exists out, bobcat_trees tag parse1 bs tokenised true xs = Ok out /\ List.length out = List.length ss /\
    forall i s, nth_error ss i = Some s -> (s = [] /\ nth_error out i = Some None) \/ (s <> [] /\ exists b gs j g, incl b ss /\ tag b = Ok gs /\ nth_error b j = Some s /\ nth_error gs j = Some g /\ nth_error out i = Some (outcome parse1 (s, g))).
Proof. intros. now apply bobcat_true. Qed.
Print Assumptions C80_bobcat_suppressed.
(** Without suppression: either some sentence is empty or unparsable and an exception is raised, or every sentence is parsed and the results are in order. *)
Theorem C80_bobcat_strict : forall (T G : Type) (tag : list sentence -> res (list G)) (parse1 : sentence * G -> res T) (bs : nat) tokenised xs ss, (0 < bs)%nat -> (forall b, exists gs, tag b = Ok gs /\ List.length gs = List.length b) -> reads tokenised xs ss ->
  match bobcat_trees tag parse1 bs tokenised false xs with
  | Err _ => In [] ss \/ exists b gs j s g e, incl b ss /\ tag b = Ok gs /\ nth_error b j = Some s /\ nth_error gs j = Some g /\ parse1 (s, g) = Err e
  | Ok out => ~ In [] ss /\ List.length out = List.length ss /\ forall i s, nth_error ss i = Some s -> exists b gs j g t, incl b ss /\ tag b = Ok gs /\ nth_error b j = Some s /\ nth_error gs j = Some g /\ parse1 (s, g) = Ok t /\ nth_error out i = Some (Some t)
  end.
Proof. intros. now apply bobcat_false. Qed.
Print Assumptions C80_bobcat_strict.
(** Oncilla: [pred] (the model followed by tree generation) sees each non-empty sentence without a final full stop; the entry is its only root, with cycles treated by [fc]. *)
Theorem C80_oncilla : forall (T : Type) (pred : sentence -> res (list T)) (fc : T -> T) tokenised xs ss, reads tokenised xs ss ->
  let entry s := match s with [] => None | _ => match pred (drop_stop s) with Ok [r] => Some (fc r) | _ => None end end in
  oncilla_trees pred fc tokenised true xs = Ok (map entry ss) /\
  match oncilla_trees pred fc tokenised false xs with Ok out => out = map entry ss /\ ~ In None out | Err _ => In None (map entry ss) end.
Proof. intros T pred fc tokenised xs ss R. now apply oncilla_ok. Qed.
Print Assumptions C80_oncilla.
(** What [drop_stop] takes off: one final full stop and nothing else. *)
Theorem C80_oncilla_stop : forall s, (forall t, s = (t ++ ["."])%list -> drop_stop s = t) /\ ((forall t, s <> (t ++ ["."])%list) -> drop_stop s = s).
Proof. intros s. split; [intros t ->; apply drop_stop_end | apply drop_stop_other]. Qed.
Print Assumptions C80_oncilla_stop.
(** The web parser, for a service whose answers are all trees. *)
Theorem C80_web : forall (T J : Type) (get : string -> res J) (from_json : J -> res T) (tokenised : bool) (xs : list input) (strs : list string), (forall j, exists t, from_json j = Ok t) -> (if tokenised then exists ss, xs = map Toks ss /\ strs = map (String.concat " ") ss else exists ts, xs = map Str ts /\ strs = map (fun s => String.concat " " (py_split s)) ts) ->
  let entry s := if s =? "" then None else match get s with Ok j => outcome from_json j | Err _ => None end in
  web_trees get from_json tokenised true xs = Ok (map entry strs) /\
  match web_trees get from_json tokenised false xs with Ok out => out = map entry strs /\ ~ In None out | Err _ => In None (map entry strs) end.
Proof. intros. now apply web_ok. Qed.
Print Assumptions C80_web.
(** An answer of the service that is no tree is not suppressed. *)
Theorem C80_web_refuted : exists (T J : Type) (get : string -> res J) (from_json : J -> res T) xs, is_ok (web_trees get from_json false true xs) = false.
Proof. exists nat, nat, (fun _ => Ok 0%nat), (fun _ => Err KeyError), [Str "Alice sleeps"]. reflexivity. Qed.
Print Assumptions C80_web_refuted.
(** DepCCG, for a parser that gives each sentence at least one (possibly failed) parse and whose trees can be converted. *)
Theorem C80_depccg : forall (T D : Type) (parses : list sentence -> res (list (list (option T)))) (build : T -> res D) tokenised xs ss, reads tokenised xs ss ->
  (forall b, exists ps, parses b = Ok ps /\ List.length ps = List.length b /\ ~ In [] ps) -> (forall t, exists d, build t = Ok d) ->
  exists out rest_, dep_trees parses build tokenised true xs = Ok (out, rest_) /\ List.length out = List.length ss /\
    forall i s, nth_error ss i = Some s -> (s = [] /\ nth_error out i = Some None) \/ (s <> [] /\ exists b ps j p, incl b ss /\ parses b = Ok ps /\ nth_error b j = Some s /\ nth_error ps j = Some p /\ nth_error out i = Some (match p with Some t :: _ => outcome build t | _ => None end)).
Proof. intros. now apply dep_ok. Qed.
Print Assumptions C80_depccg.
Theorem C80_depccg_strict : forall (T D : Type) (parses : list sentence -> res (list (list (option T)))) (build : T -> res D) tokenised xs ss ps, reads tokenised xs ss ->
  parses ss = Ok ps -> List.length ps = List.length ss -> ~ In [] ps -> (forall t, exists d, build t = Ok d) ->
  match dep_trees parses build tokenised false xs with
  | Err _ => In [] ss \/ exists p, In p ps /\ hd_error p = Some None
  | Ok (out, _) => ~ In [] ss /\ List.length out = List.length ss /\ forall i p, nth_error ps i = Some p -> exists t d, hd_error p = Some (Some t) /\ build t = Ok d /\ nth_error out i = Some (Some d)
  end.
Proof. intros. now apply dep_strict. Qed.
Print Assumptions C80_depccg_strict.
(** The caller's list survives when no sentence is empty, but with tokenised input DepCCG deletes the empty sentences from it. *)
Theorem C80_depccg_input_partial : forall (T D : Type) (parses : list sentence -> res (list (list (option T)))) (build : T -> res D) tokenised suppress xs ss out xs', reads tokenised xs ss -> tokenised = false \/ ~ In [] ss -> dep_trees parses build tokenised suppress xs = Ok (out, xs') -> xs' = xs.
Proof. intros T D parses build tokenised suppress xs ss out xs' R H E. exact (dep_input R H E). Qed.
Print Assumptions C80_depccg_input_partial.
Theorem C80_depccg_input_refuted : exists (parses : list sentence -> res (list (list (option nat)))) (build : nat -> res nat) xs out xs', dep_trees parses build true true xs = Ok (out, xs') /\ List.length xs' <> List.length xs.
Proof. exists (fun b => Ok (map (fun s => [Some (List.length s)]) b)), (fun t => Ok t), [Toks ["Alice"]; Toks []], [Some 1%nat; None], [Toks ["Alice"]]. split; [reflexivity | discriminate]. Qed.
Print Assumptions C80_depccg_input_refuted.
(** A list of the wrong kind is refused by all parsers. *)
Theorem C80_type_check : forall (T D G J : Type) (tag : list sentence -> res (list G)) (parse1 : sentence * G -> res T) pred (fc : T -> T) (get : string -> res J) from_json parses (build : T -> res D) bs tokenised suppress xs x,
  In x xs -> match x with Str _ => tokenised = true | Toks _ => tokenised = false end ->
  bobcat_trees tag parse1 bs tokenised suppress xs = Err ValueError /\ oncilla_trees pred fc tokenised suppress xs = Err ValueError /\ web_trees (T := T) get from_json tokenised suppress xs = Err ValueError /\ dep_trees parses build tokenised suppress xs = Err ValueError.
Proof. intros T D G J tag parse1 pred fc get from_json parses build bs tokenised suppress xs x Hx Hk. now apply (type_check tag parse1 pred fc get from_json parses build bs suppress Hx). Qed.
Print Assumptions C80_type_check.
(** Diagrams: entry by entry. *)
Theorem C80_diagrams : forall (T D : Type) (to_diagram : T -> res D) ts, let entry t := match t with None => None | Some t => outcome to_diagram t end in
  trees2diagrams to_diagram true ts = Ok (map entry ts) /\ (forall out, trees2diagrams to_diagram false ts = Ok out -> out = map entry ts /\ forall i t, nth_error ts i = Some (Some t) -> exists d, nth_error out i = Some (Some d) /\ to_diagram t = Ok d).
Proof. intros. apply diagrams_ok. Qed.
Print Assumptions C80_diagrams.
(** Non-vacuity: five sentences in batches of two, two of them empty, one unparsable. *)
Example C80_ex : bobcat_trees (fun b => Ok (map (@List.length string) b)) (fun x => if (snd x =? 2)%nat then Err KeyError else Ok (String.concat "+" (fst x))) 2 false true [Str " "; Str "a b c"; Str ""; Str "x y"; Str "z"] = Ok [None; Some "a+b+c"; None; None; Some "z"].
Proof. reflexivity. Qed.
Example C80_ex_oncilla : oncilla_trees (fun s => Ok [List.length s]) S true true [Toks ["a"; "b"; "."]; Toks []; Toks ["c"]] = Ok [Some 3%nat; None; Some 2%nat].
Proof. reflexivity. Qed.

(** ** C81. The span table of the tagger, whatever was asked before. *)
Theorem C81_chart_spans : forall (h : list call) (n : nat), let l := fst (get_chart_spans n (after h)) in
  List.length l = (n * (n + 1) / 2)%nat /\ forall x y, (x <= y)%nat -> (y < n)%nat -> nth_error l (y * (y + 1) / 2 + (y - x)) = Some (x, y).
Proof. intros h n. destruct (after_chart h) as [m ->]. destruct (get_ok m n) as (m' & _ & -> & _). split; [apply chart_len | apply chart_nth]. Qed.
Print Assumptions C81_chart_spans.
Theorem C81_inverse : forall (h : list call), (forall x y, (x <= y)%nat -> exists i, span2idx x y = Z.of_nat i /\ fst (idx2span i (after h)) = Ok (x, y)) /\ (forall i, exists x y, fst (idx2span i (after h)) = Ok (x, y) /\ (x <= y)%nat /\ span2idx x y = Z.of_nat i).
Proof.
  intros h. destruct (after_chart h) as [m ->]. split.
  - intros x y L. exists (tri y + (y - x))%nat. split; [now apply span2idx_tri|]. destruct (idx_ok' m L) as (k & _ & ->). reflexivity.
  - intros i. destruct (tri_find i) as (x & y & L & ->). exists x, y. destruct (idx_ok' m L) as (k & _ & ->). split; [reflexivity|]. split; [exact L | now apply span2idx_tri].
Qed.
Print Assumptions C81_inverse.
Example C81_ex : fst (get_chart_spans 3 (after [Idx 7; Spans 2])) = [(0, 0); (1, 1); (0, 1); (2, 2); (1, 2); (0, 2)]%nat.
Proof. vm_compute. reflexivity. Qed.

(** ** C82. The tagger's choice of tags and spans. Rows of scores come in descending order ([rows_ok], [selected], [no_shared]: PbSpec.v). *)
(** With a relative tag threshold (a probability, so with logarithm at most 0), and if no tag has exactly the index and score of some span: every word gets at least one tag, the tags above the threshold; every span of the sentence is listed with its categories above the threshold, if any. *)
Theorem C82_tagger_partial : forall (st : settings) (h : list call) (inputs : list sentence) (tag_scores span_scores : list (list (list scored))),
  rows_ok (map (@List.length string) inputs) tag_scores -> rows_ok (map (fun s => List.length s * (List.length s + 1) / 2)%nat inputs) span_scores -> rel_tag st = true -> (forall l, logp_tag st = Some l -> (l <= 0)%Z) -> no_shared tag_scores span_scores ->
  exists out memo, tagger_parse st inputs tag_scores span_scores (after h) = Ok (out, memo) /\ map (fun o => fst (fst o)) out = inputs /\
    forall j words tags spans trows srows, nth_error out j = Some (words, tags, spans) -> nth_error tag_scores j = Some trows -> nth_error span_scores j = Some srows ->
      List.length tags = List.length words /\
      (forall w ts row, nth_error tags w = Some ts -> nth_error trows w = Some row -> ts <> [] /\ ts = selected true (logp_tag st) row) /\
      (forall x y o, In ((x, y), o) spans <-> (x <= y)%nat /\ (y < List.length words)%nat /\ o <> [] /\ exists row, nth_error srows (y * (y + 1) / 2 + (y - x)) = Some row /\ o = selected_span (rel_span st) (logp_span st) row).
Proof. intros st h inputs tsc ssc H1 H2 H3 H4 H5. now apply tagger_ok. Qed.
Print Assumptions C82_tagger_partial.
(** The null category is listed when the lists compared by the code happen to be equal: a word without tags (absolute threshold). *)
Theorem C82_null_refuted : exists st inputs tsc ssc out memo, rows_ok (map (@List.length string) inputs) tsc /\ rows_ok (map (fun s => List.length s * (List.length s + 1) / 2)%nat inputs) ssc /\ tagger_parse st inputs tsc ssc [] = Ok (out, memo) /\ exists w t sp o, In (w, t, [(sp, o)]) out /\ In 0%nat (map fst o).
Proof.
  exists (Settings false (Some (-1)%Z) true (Some (-1)%Z)), [["hm"]], [[[(3%nat, (-5)%Z)]]], [[[(0%nat, (-2)%Z)]]]. eexists. eexists. split; [|split; [|split; [vm_compute; reflexivity|]]].
  1,2: constructor; [|constructor]; split; [cbn; lia|]; constructor; [|constructor]; split; [discriminate|]; constructor; constructor.
  exists ["hm"], [[]], (0, 0)%nat, [(0%nat, (-2)%Z)]. split; [now left | now left].
Qed.
Print Assumptions C82_null_refuted.
Example C82_ex : tagger_parse (Settings true (Some (-3)%Z) true None) [["a"; "b"]] [[[(5%nat, (-1)%Z); (0%nat, (-4)%Z); (2%nat, (-9)%Z)]; [(7%nat, (-2)%Z)]]] [[[(0%nat, (-3)%Z)]; [(1%nat, (-6)%Z); (0%nat, (-7)%Z)]; [(4%nat, (-8)%Z)]]] (after [])
  = Ok ([(["a"; "b"], [[(5%nat, (-1)%Z); (0%nat, (-4)%Z)]; [(7%nat, (-2)%Z)]], [((1, 1)%nat, [(1%nat, (-6)%Z)]); ((0, 1)%nat, [(4%nat, (-8)%Z)])])], [(0, 0); (1, 1); (0, 1)]%nat).
Proof. vm_compute. reflexivity. Qed.
Example C82_ex_hyps : let t := [[[(5%nat, (-1)%Z); (0%nat, (-4)%Z); (2%nat, (-9)%Z)]; [(7%nat, (-2)%Z)]]] in let s := [[[(0%nat, (-3)%Z)]; [(1%nat, (-6)%Z); (0%nat, (-7)%Z)]; [(4%nat, (-8)%Z)]]] in
  rows_ok (map (@List.length string) [["a"; "b"]]) t /\ rows_ok (map (fun s => List.length s * (List.length s + 1) / 2)%nat [["a"; "b"]]) s /\ no_shared t s.
Proof.
  cbv zeta. split; [|split].
  1,2: constructor; [|constructor]; split; [cbn; lia|]; repeat (apply Forall_cons; [split; [discriminate|]; repeat (apply SSorted_cons; [|repeat (apply Forall_cons; [unfold sc_ge; cbn; lia|]); apply Forall_nil]); apply SSorted_nil|]); apply Forall_nil.
  intros a r x a' r' H1 H2 H3 H4 H5 H6. destruct H1 as [<-|[]], H4 as [<-|[]]. cbn in *. intuition (subst; cbn in *; intuition congruence).
Qed.
