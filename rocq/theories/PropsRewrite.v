(** Property theorems: box-level rewriting (C28-C31) and unifying codomains (C34). *)
From Verif Require Import PyBase TyModel DiagModel DiagSpec FunctorModel FunctorSpec FunctorCache RewModel RewSpec RewFacts RewCache RewUnk RewFill.
Local Open Scope string_scope.
Local Open Scope list_scope.

(** ** C28 *)

(** Every rule shipped under a name, on every box it matches (boxes without inputs for the simple and the
    coordination rules), succeeds and gives a well-typed diagram with the box's domain and codomain. *)
Theorem C28_shipped_rules : forall name r b,
  In (name, r) available_rules -> rule_matches r b = true -> (for_states r -> b_dom b = []) ->
  exists d, rule_rewrite r b = Ok d /\ typed d (b_dom b) (b_cod b).
Proof. intros name r b H M S. exact (rule_typed (available_good H) S M). Qed.
Print Assumptions C28_shipped_rules.

(** The curry and collapse-domain rules do so for every box at all, the unknown-words rule for every word. *)
Theorem C28_general_rules : forall b,
  (exists d, rule_rewrite Curry b = Ok d /\ typed d (b_dom b) (b_cod b)) /\
  (forall left, exists d, rule_rewrite (Collapse left) b = Ok d /\ typed d (b_dom b) (b_cod b)) /\
  (forall voc unk, rule_matches (Unknown voc unk) b = true ->
     exists d, rule_rewrite (Unknown voc unk) b = Ok d /\ typed d (b_dom b) (b_cod b)).
Proof.
  intro b. split; [exact (curry_rw_typed b)|]. split; [exact (fun l => collapse_typed l b)|].
  intros voc unk M. refine (@rule_typed (Unknown voc unk) b I _ M). intros [].
Qed.
Print Assumptions C28_general_rules.

(** User-supplied simple rules whose template is a well-typed state of the matched codomain. *)
Theorem C28_simple_rules : forall c t words cs b, rule_good (Simple c t words cs) ->
  b_cod b = c -> exists d, rule_rewrite (Simple c t words cs) b = Ok d /\ typed d [] c.
Proof. intros c t words cs b [G1 G2] _. exact (simple_typed b G1 G2). Qed.
Print Assumptions C28_simple_rules.

(** The rewriter never changes the interface of a diagram: whatever it returns has the same ends ... *)
Theorem C28_rewriter_interface : forall rules d e, rewrite rules d = Ok e -> dom e = dom d /\ cod e = cod d.
Proof. intros rules d e H. exact (id_diag_ends H). Qed.
Print Assumptions C28_rewriter_interface.

(** ... and it returns, well typed, on every well-typed diagram whose boxes matched by state rules are states. *)
Theorem C28_rewriter_total : forall rules d, wf d -> Forall rule_good rules ->
  (forall b r, In b (seen_boxes d) -> In r rules -> rule_matches r b = true -> for_states r -> b_dom b = []) ->
  exists e, rewrite rules d = Ok e /\ typed e (dom d) (cod d).
Proof.
  intros rules d W G H. apply rewrite_typed; auto. apply All_in. intros x Hx. apply All_in. intros y Hy r Hr M.
  unfold meant_for. apply H; auto. unfold seen_boxes. apply in_flat_map. eauto.
Qed.
Print Assumptions C28_rewriter_total.

(** A state rule that matches a box with inputs makes the rewriter raise (never an ill-typed result). *)
Theorem C28_non_states_raise : forall r b post, rule_good r -> for_states r -> b_z b = 0%Z -> basic b -> b_dom b <> [] ->
  rule_matches r b = true -> rewrite (r :: post) (to_diag b) = Err TypeError.
Proof. intros. now apply rewrite_non_state. Qed.
Print Assumptions C28_non_states_raise.

Definition ex_adv : box := Word "quickly" (rot 1 [("s", 0%Z)] ++ rot 2 [("n", 0%Z)] ++ rot 1 [("n", 0%Z)] ++ [("s", 0%Z)]) 0.
Definition ex_and : box := Word "and" (rot 1 [("n", 0%Z)] ++ [("n", 0%Z)] ++ rot (-1) [("n", 0%Z)]) 0.
Example C28_nonvacuous :
  rule_matches postadverb_rule ex_adv = true /\ rule_matches (Coordination ["and"]) ex_and = true /\
  rule_matches Curry ex_and = true /\ Forall rule_good (map snd available_rules) /\
  (match rewrite (map snd available_rules) (tensor (to_diag ex_and) (to_diag ex_adv)) with
   | Ok e => List.length (layers e) = 5 | Err _ => False end).
Proof.
  repeat split; try reflexivity. apply Forall_forall. intros r Hr. apply in_map_iff in Hr.
  destruct Hr as ([n r'] & <- & Hr). exact (available_good Hr).
Qed.

(** ** C29 *)

(** If no added rule would have changed how an already rewritten box is rewritten (and no call raised a
    TypeError), every call in every history of [add_rules] and rewriting calls uses exactly the rules in force. *)
Theorem C29_added_rules_take_effect_partial : forall rules h,
  no_retroactive_rule rules [] h -> Forall (fun r => r <> Err TypeError) (expected rules h) ->
  fst (rw_run h (Rewriter rules empty_caches)) = expected rules h.
Proof. intros rules h H1 H2. exact (history_expected H1 H2). Qed.
Print Assumptions C29_added_rules_take_effect_partial.

(** Added rules do join the list in order, up to the first unknown name, which raises ValueError. *)
Theorem C29_rule_list : forall args rs, exists ns, snd (add_rules args rs) = (rs ++ ns)%list /\
  (fst (add_rules args rs) = Ok tt \/ fst (add_rules args rs) = Err ValueError) /\
  (fst (add_rules args rs) = Ok tt -> List.length ns = List.length args).
Proof.
  induction args as [|[r|s] args IH]; intro rs; cbn [add_rules].
  - exists []. rewrite app_nil_r. cbn. auto.
  - destruct (IH (rs ++ [r])%list) as (ns & -> & H1 & H2). exists (r :: ns). rewrite <- app_assoc. cbn. auto.
  - destruct (lookup String.eqb s available_rules) as [r|].
    + destruct (IH (rs ++ [r])%list) as (ns & -> & H1 & H2). exists (r :: ns). rewrite <- app_assoc. cbn. auto.
    + exists []. rewrite app_nil_r. cbn. repeat split; auto. discriminate.
Qed.
Print Assumptions C29_rule_list.

Definition ex_the : diagram := to_diag (Word "the" (over N N) 0).
(** In general the claim fails: a diagram rewritten before [add_rules] keeps its old result afterwards. *)
Theorem C29_stale_cache_refuted : exists rules d,
  exists r1 r2, fst (rw_run [OCall d; OAdd [RName "determiner"]; OCall d] (Rewriter rules empty_caches)) = [Ok r1; Ok (id []); Ok r1] /\
  rewrite (rules ++ [determiner_rule]) d = Ok r2 /\ r1 <> r2.
Proof.
  exists [], ex_the, ex_the, (to_diag (Cap aN (Zr (-1) aN) false)). split; [reflexivity|]. split; [reflexivity|]. discriminate.
Qed.
Print Assumptions C29_stale_cache_refuted.

Example C29_nonvacuous :
  let h := [OCall (to_diag (Word "cat" N 0)); OAdd [RName "determiner"; RName "bogus"; RName "curry"]; OCall ex_the;
            OAdd [RRule (Collapse true)]; OCall (to_diag ex_adv); OCall ex_the] in
  no_retroactive_rule [] [] h /\ Forall (fun r => r <> Err TypeError) (expected [] h) /\
  nth_error (expected [] h) 1 = Some (Err ValueError) /\
  nth_error (expected [] h) 5 = Some (Ok (to_diag (Cap aN (Zr (-1) aN) false))).
Proof.
  cbn zeta. split; [|split; [|split; reflexivity]].
  - cbn [no_retroactive_rule add_rules]. split; [|split; [|exact I]].
    + intros b [<-|[]]. right. intros r [<-|[]]. right. reflexivity.
    + intros b Hb. right. intros r Hr. vm_compute in Hb, Hr. destruct Hr as [<-|[<-|[]]]; [left; cbn; auto|].
      right. destruct Hb as [<-|[<-|[]]]; reflexivity.
  - repeat constructor; discriminate.
Qed.

(** ** C30 *)

(** Case-sensitive rules: exact match of codomain and word. *)
Theorem C30_case_sensitive : forall c t words b,
  rule_matches (Simple c t words true) b = true <->
  b_cod b = c /\ (forall ws, words = Some ws -> In (b_name b) ws).
Proof.
  intros c t words b. cbn [rule_matches]. unfold simple_matches. rewrite andb_true_iff, BoxEq.ty_eqb_iff.
  destruct words as [ws|]; [rewrite mem_iff|]; split; intros [H1 H2]; split; auto; intros ws'; congruence.
Qed.
Print Assumptions C30_case_sensitive.

(** Case-insensitive rules whose listed words are written in lower case: match up to letter case. *)
Theorem C30_case_insensitive_partial : forall c t words b,
  (forall ws w, words = Some ws -> In w ws -> lower w = w) ->
  (rule_matches (Simple c t words false) b = true <->
   b_cod b = c /\ (forall ws, words = Some ws -> exists w, In w ws /\ same_word w (b_name b))).
Proof.
  intros c t words b L. cbn [rule_matches]. unfold simple_matches. rewrite andb_true_iff, BoxEq.ty_eqb_iff.
  destruct words as [ws|]; [rewrite mem_iff|]; split; intros [H1 H2]; split; auto.
  - intros ws' [= <-]. exists (lower (b_name b)). split; auto. unfold same_word. now apply (L ws).
  - destruct (H2 ws eq_refl) as (w & Hw & E). unfold same_word in E. rewrite <- E, (L ws); auto.
  - discriminate.
Qed.
Print Assumptions C30_case_insensitive_partial.

(** A listed word with a capital letter is never matched by the default, case-insensitive rule -- not even
    by a box with that very name. *)
Theorem C30_capitalised_refuted : exists c t ws b,
  b_cod b = c /\ In (b_name b) ws /\ rule_matches (Simple c t (Some ws) false) b = false.
Proof. exists N, (to_diag (Word "Alice" N 0)), ["Alice"], (Word "Alice" N 0). cbn. auto. Qed.
Print Assumptions C30_capitalised_refuted.

(** The first matching rule in list order wins; a box no rule matches is left alone. *)
Theorem C30_first_match : forall rules b,
  (exists pre r post, rules = (pre ++ r :: post)%list /\ (forall q, In q pre -> rule_matches q b = false) /\
     rule_matches r b = true /\ rw_ar rules b = rule_rewrite r b) \/
  ((forall q, In q rules -> rule_matches q b = false) /\ rw_ar rules b = Ok (to_diag b)).
Proof.
  induction rules as [|r rs IH]; intro b; [right; cbn; split; [tauto|reflexivity]|].
  destruct (rule_matches r b) eqn:E.
  - left. exists [], r, rs. cbn. rewrite E. repeat split; auto. tauto.
  - destruct (IH b) as [(pre & q & post & -> & H1 & H2 & H3)|[H1 H2]].
    + left. exists (r :: pre), q, post. cbn. rewrite E. repeat split; auto. intros x [<-|]; auto.
    + right. cbn. rewrite E. split; auto. intros q [<-|]; auto.
Qed.
Print Assumptions C30_first_match.

(** What a matching simple rule puts in the box's place: its template with every placeholder word renamed to the
    name of the box. *)
Theorem C30_template : forall c t words cs b,
  wf t -> All (fun x => flat_box (l_box x) /\ placeholder_word (l_box x)) (layers t) ->
  rule_rewrite (Simple c t words cs) b = Ok (fill (b_name b) t).
Proof. intros c t words cs b W H. exact (@fw_diag (b_name b) t W H). Qed.
Print Assumptions C30_template.

Example C30_template_nonvacuous : exists c t ws cs, preadverb_rule = Simple c t ws cs /\ wf t /\ All (fun x => flat_box (l_box x) /\ placeholder_word (l_box x)) (layers t) /\
  map l_box (layers (fill "often" t)) = [Cap (Zr 1 aN) aN false; Word "often" (over St St) 0].
Proof. do 4 eexists. split; [reflexivity|]. split; [|split; [|reflexivity]]; vm_compute; repeat split; discriminate. Qed.

Example C30_nonvacuous : rule_matches determiner_rule (Word "The" (over N N) 0) = true /\
  rule_matches determiner_rule (Word "Then" (over N N) 0) = false /\
  rw_ar (map snd default_rules) (Word "DOES" preadverb_cod 0) = rule_rewrite auxiliary_rule (Word "DOES" preadverb_cod 0) /\
  rw_ar (map snd default_rules) (Word "often" preadverb_cod 0) = rule_rewrite preadverb_rule (Word "often" preadverb_cod 0) /\
  (forall w, In w ["a"; "an"; "the"] -> lower w = w).
Proof. repeat split. intros w [<-|[<-|[<-|[]]]]; reflexivity. Qed.

(** ** C31 *)

(** With words unrotated and undaggered in the collection and a threshold of at least one, the rule built by
    [from_diagrams] replaces, in any well-typed diagram, exactly the words (rotated, daggered or not) that occur
    fewer than [min_freq] times, keeping types, rotations and everything else. *)
Theorem C31_unknown_words_partial : forall ds min_freq unk ignore_types d, (1 <= min_freq)%Z ->
  All (fun x => plain_word ignore_types (l_box x)) (flat_map layers ds) ->
  wf d -> All (fun x => flat_box (l_box x)) (layers d) ->
  exists d', rewrite [from_diagrams ds min_freq unk ignore_types] d = Ok d' /\ wf d' /\
             replaced_diagram (rarely_occurs ds min_freq ignore_types) unk d d'.
Proof. intros. now apply unknown_words. Qed.
Print Assumptions C31_unknown_words_partial.

Definition rot_alice : box := Word "Alice" (rot 1 N) 1.
(** Without those hypotheses the claim fails: a rotated word is counted under its rotated type, a daggered word is
    not counted, and with a threshold of zero words that never occur are still replaced. *)
Theorem C31_miscounted_refuted :
  (rewrite [from_diagrams [to_diag rot_alice] 1 "<UNK>" false] (to_diag rot_alice) = Ok (to_diag (Word "<UNK>" (rot 1 N) 1)) /\
   ~ rarely_occurs [to_diag rot_alice] 1 false "Alice" N) /\
  (rewrite [from_diagrams [to_diag (Dagg (Word "Alice" N 0))] 1 "<UNK>" false] (to_diag (Word "Alice" N 0)) = Ok (to_diag (Word "<UNK>" N 0)) /\
   ~ rarely_occurs [to_diag (Dagg (Word "Alice" N 0))] 1 false "Alice" N) /\
  (rewrite [from_diagrams [] 0 "<UNK>" false] (to_diag (Word "Alice" N 0)) = Ok (to_diag (Word "<UNK>" N 0)) /\
   ~ rarely_occurs [] 0 false "Alice" N).
Proof.
  split; [|split]; (split; [reflexivity|]); intros (k & H & Hk); cbn in H; inversion H; subst; try lia;
    match goal with X : ~ is_occurrence _ _ _ |- _ => apply X; cbn; auto end.
Qed.
Print Assumptions C31_miscounted_refuted.

Definition ex_train : list diagram := [to_diag (Word "Alice" N 0); tensor (to_diag (Word "Bob" N 0)) (to_diag (Word "Alice" N 0))].
Example C31_nonvacuous :
  All (fun x => plain_word false (l_box x)) (flat_map layers ex_train) /\
  rewrite [from_diagrams ex_train 2 "<UNK>" false]
    (tensor (tensor (to_diag rot_alice) (to_diag (Word "Bob" N 0))) (to_diag (Dagg (Word "Eve" N 0)))) =
    Ok (tensor (tensor (to_diag rot_alice) (to_diag (Word "<UNK>" N 0))) (to_diag (Dagg (Word "<UNK>" N 0)))).
Proof. split; [vm_compute; repeat split; left; reflexivity|vm_compute; reflexivity]. Qed.

(** ** C34 *)

Theorem C34_unify_codomain : forall out d, wf d ->
  exists e, unify_codomain out d = Ok e /\ typed e (dom d) out /\
    (cod d = out -> e = d) /\
    (cod d <> out -> exists b, layers e = (layers d ++ [([], b, [])])%list /\ b_dom b = cod d /\ b_cod b = out).
Proof. intros out d W. exact (unify_ok out W). Qed.
Print Assumptions C34_unify_codomain.

Theorem C34_unify_codomain_list : forall out ds, All wf ds -> exists es, unify_codomain_list out ds = Ok es /\
  Forall2 (fun d e => unify_codomain out d = Ok e) ds es.
Proof. intros out ds W. exact (unify_list out W). Qed.
Print Assumptions C34_unify_codomain_list.

Example C34_nonvacuous : unify_codomain St (to_diag ex_and) =
  Ok (Diag [] St [([], ex_and, []); ([], Box "MERGE_n.r @ n @ n.l" (b_cod ex_and) St 0, [])]).
Proof. reflexivity. Qed.
