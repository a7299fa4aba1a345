(** C84, C85: Bobcat's chart. *)
From Verif Require Import PyBase BobModel BobSpec BobFacts ChModel ChSpec ChCell ChChart ChFinal.
Open Scope string_scope. Open Scope nat_scope.

(** ** C84: a cell of the chart keeps the best tree of each category, up to the beam *)
Theorem C84_cell : forall T S (cat_of : T -> cat) (score : T -> S) ltb ninf ha hs is_same b batches,
  score_order ltb -> 1 <= b -> (forall t, is_same t t = true) -> (forall t u, is_same t u = true -> c_equals ha hs (cat_of t) (cat_of u) = true) -> (forall ts t, In ts batches -> In t ts -> proper (cat_of t)) ->
  exists c, offer cat_of score ltb ninf (c_equals ha hs) is_same b batches = Ok c /\
    descending score ltb (trees c) /\ one_per_category cat_of (c_equals ha hs) (trees c) /\ within_beam score ltb b (trees c) /\
    (forall ts t, In ts batches -> In t ts -> kept cat_of score ltb (c_equals ha hs) b (trees c) t) /\
    (forall t, In t (trees c) -> exists ts, In ts batches /\ In t ts) /\
    (forall k t, proper k -> (m_get (c_equals ha hs) k (tmap c) = Some t <-> In t (trees c) /\ c_equals ha hs (cat_of t) k = true)) /\
    ((List.length (trees c) < b /\ minsc c = ninf) \/ (exists t, nth_error (trees c) (b - 1) = Some t /\ minsc c = score t)).
Proof. exact offer_ok. Qed.
Print Assumptions C84_cell.
(** the first tree of the cell is at least as good as every tree ever offered *)
Theorem C84_best : forall T S (cat_of : T -> cat) (score : T -> S) ltb ninf ha hs is_same b batches c ts t,
  score_order ltb -> 1 <= b -> (forall t, is_same t t = true) -> (forall t u, is_same t u = true -> c_equals ha hs (cat_of t) (cat_of u) = true) -> (forall ts t, In ts batches -> In t ts -> proper (cat_of t)) ->
  offer cat_of score ltb ninf (c_equals ha hs) is_same b batches = Ok c -> In ts batches -> In t ts -> exists u, hd_error (trees c) = Some u /\ ltb (score u) (score t) = false.
Proof.
  intros T S cat_of score ltb ninf ha hs is_same b batches c ts t O B R I P E Hts Ht. destruct (@offer_ok T S cat_of score ltb ninf ha hs is_same b batches O B R I P) as (c' & E' & D & _ & _ & K & _). rewrite E in E'. injection E' as <-.
  assert (X := K ts t Hts Ht). destruct (trees c) as [|u l]; [destruct X as [[]|[(u & [] & _)|[X _]]]; cbn in X; lia|]. exists u. split; [reflexivity|].
  assert (F : forall v, In v (u :: l) -> ltb (score u) (score v) = false). { intros v [<-|Hv]; [apply (lt_irr O)|]. apply In_nth_error in Hv. destruct Hv as [i Hi]. exact (D 0 (Datatypes.S i) u v (Nat.lt_0_succ i) (Logic.eq_refl _) Hi). }
  destruct X as [X|[(v & Hv & _ & G)|[_ X]]]; [now apply F|exact (le_tr O G (F v Hv))|]. apply (lt_le O). apply X. now left.
Qed.
Print Assumptions C84_best.
Example C84_example : let l (k : cat) n := TLeaf (leaf k "w") "w" 1 (Some n) in let bs := [[l ex_np 1%Z; l ex_vp 3%Z]; [l ex_np 2%Z; l (ex_s "dcl") 2%Z]; [l ex_tr 0%Z]; [l (ex_s "b") 3%Z]] in
  score_order zlt /\ (forall ts t, In ts bs -> In t ts -> proper (t_cat t)) /\
  rmap (fun c => (map (@t_score _) (trees c), minsc c)) (offer (@t_cat _) (@t_score _) zlt None ex_eqc ex_same 2 bs) = Ok ([Some 3%Z; Some 3%Z], Some 3%Z) /\
  rmap (fun c => (map (@t_score _) (trees c), minsc c)) (offer (@t_cat _) (@t_score _) zlt None ex_eqc ex_same 3 bs) = Ok ([Some 3%Z; Some 3%Z; Some 2%Z; Some 2%Z], Some 2%Z).
Proof.
  cbv zeta. split; [apply zlt_order|]. split; [|split; vm_compute; reflexivity]. intros ts t H. cbn [In] in H. repeat (destruct H as [<-|H]; [intro K; cbn [In] in K; repeat (destruct K as [<-|K]; [cbn; prp|]); contradiction|]). contradiction.
Qed.

(** ** C85: the chart parser *)
(** The parses are derivations of the whole sentence, one per category, best first; each has exactly the words of the sentence, in order. *)
Theorem C85_sound : forall S ltb add ninf eqc is_same lexical combine change raise_ roots rid missing_cat missing_span unset weigh b max_trees node, @sane S ltb add ninf eqc is_same lexical combine change raise_ b node ->
  forall st ws ts, parse ltb add ninf eqc is_same lexical combine change raise_ roots rid missing_cat missing_span unset weigh b max_trees st = Ok (ws, ts) ->
  List.length (tags st) = List.length (words st) -> (forall tg, In tg (tags st) -> tg <> []) ->
  (2 <= List.length (words st) \/ ts <> [] -> ws = words st) /\
  (forall t, In t ts -> derives add lexical combine change raise_ rid missing_cat missing_span weigh st 0 (List.length (words st) - 1) t /\
     yield_ t = List.combine (words st) (seq 1 (List.length (words st))) /\ root_ok roots t) /\
  descending (@t_score S) ltb ts /\ one_per_category (@t_cat S) eqc ts /\ within_beam (@t_score S) ltb b ts.
Proof. intros S ltb add ninf eqc is_same lexical combine change raise_ roots rid mc ms unset weigh b mt node SN st. exact (parse_sound SN (st := st)). Qed.
Print Assumptions C85_sound.
(** every cell, not only the last one *)
Theorem C85_cells : forall S ltb add ninf eqc is_same lexical combine change raise_ roots rid missing_cat missing_span unset weigh b max_trees node, @sane S ltb add ninf eqc is_same lexical combine change raise_ b node ->
  forall st ch s e, parse_chart ltb add ninf eqc is_same lexical combine change raise_ roots rid missing_cat missing_span unset weigh b max_trees st = Ok ch ->
  (forall t, In t (cell_trees ch s e) -> derives add lexical combine change raise_ rid missing_cat missing_span weigh st s e t /\ (e - s + 1 = List.length (words st) -> root_ok roots t)) /\
  descending (@t_score S) ltb (cell_trees ch s e) /\ one_per_category (@t_cat S) eqc (cell_trees ch s e) /\ within_beam (@t_score S) ltb b (cell_trees ch s e).
Proof. intros S ltb add ninf eqc is_same lexical combine change raise_ roots rid mc ms unset weigh b mt node SN st ch s e. exact (fun E => cell_sound SN s e E). Qed.
Print Assumptions C85_cells.
(** Without a bound on the number of trees, nothing is lost but to the beam: every tree that the words or two trees of the chart give is in its cell, or an equally good one of its category is, or the cell is full of better ones. *)
Theorem C85_complete : forall S ltb add ninf eqc is_same lexical combine change raise_ roots rid missing_cat missing_span unset weigh b node, @sane S ltb add ninf eqc is_same lexical combine change raise_ b node ->
  forall st ch s e t, parse_chart ltb add ninf eqc is_same lexical combine change raise_ roots rid missing_cat missing_span unset weigh b None st = Ok ch ->
  candidate (derives add lexical combine change raise_ rid missing_cat missing_span weigh st) st roots (cell_trees ch) s e t -> kept (@t_cat S) (@t_score S) ltb eqc b (cell_trees ch s e) t.
Proof. intros S ltb add ninf eqc is_same lexical combine change raise_ roots rid mc ms unset weigh b node SN st ch s e t. exact (fun E C => cell_complete SN (Logic.eq_refl _) E C). Qed.
Print Assumptions C85_complete.
(** the parser itself never fails: an exception comes from a rule or from the lexicon *)
Theorem C85_errors : forall S ltb add ninf eqc is_same lexical combine change raise_ roots rid missing_cat missing_span unset weigh b max_trees node, @sane S ltb add ninf eqc is_same lexical combine change raise_ b node ->
  forall st x, parse ltb add ninf eqc is_same lexical combine change raise_ roots rid missing_cat missing_span unset weigh b max_trees st = Err x ->
  (exists l r, combine l r = Err x) \/ (exists c w i, lexical c w i = Err x).
Proof. intros S ltb add ninf eqc is_same lexical combine change raise_ roots rid mc ms unset weigh b mt node SN st x. exact (parse_error SN (st := st) (x := x)). Qed.
Print Assumptions C85_errors.
(** Bobcat's grammar is such a parser, and every combination, unary step and word in a parse is as its rules, tables and lexicon say. *)
Theorem C85_bobcat : forall S ltb add ninf ha hs is_same order eisner pl pr tbl cats changes raises roots rid missing_cat missing_span unset weigh b max_trees,
  score_order ltb -> score_add ltb add -> (forall a : S, ltb a ninf = false) -> 1 <= b -> (forall t, is_same t t = true) -> (forall t u, is_same t u = true -> c_equals ha hs (t_cat t) (t_cat u) = true) ->
  (forall vs v, In v (order vs) <-> In v vs) -> (forall a c d, In d (pl a c) -> proper d) -> (forall a c d, In d (pr a c) -> proper d) -> (forall p, In p cats -> proper (snd p)) ->
  (forall p d, In p changes -> In d (snd p) -> proper d) -> (forall p d, In p raises -> In d (snd p) -> proper d) ->
  let eqc := c_equals ha hs in let lexical := bob_lexical cats in let comb l r := combine order l r eisner pl pr tbl in let change := bob_change eqc changes in let raise_ := bob_raise eqc raises in
  sane ltb add ninf eqc is_same lexical comb change raise_ b (fun x => proper (p_cat x)) /\
  forall st ws ts t, parse ltb add ninf eqc is_same lexical comb change raise_ roots rid missing_cat missing_span unset weigh b max_trees st = Ok (ws, ts) ->
    List.length (tags st) = List.length (words st) -> (forall tg, In tg (tags st) -> tg <> []) -> In t ts ->
    (forall l r x, In (l, r, x) (combinations t) -> outcome pl pr l r x /\ tbl (p_cat l) (p_cat r) = true /\ proper (p_cat x)) /\
    (forall c x, In (c, x) (unary_steps t) -> unary_ok eqc changes raises c x) /\ (forall x w, In (x, w) (tagged_words t) -> tagged_ok cats x w).
Proof.
  intros S ltb add ninf ha hs is_same order eisner pl pr tbl cats changes raises roots rid mc ms unset weigh b mt O A N B Ir Ic Or PL PR PC PCh PRa. cbv zeta.
  assert (SN := bob_sane (ltb := ltb) eisner tbl O A N B Ir Ic Or PL PR PC PCh PRa). split; [exact SN|]. intros st ws ts t E TL TN Ht. destruct (parse_sound SN E TL TN) as (_ & D & _). destruct (D t Ht) as (Dt & _).
  split; [|split; [intros c x I; apply bob_unary; exact (unary_steps_ok Dt I)|intros x w I; destruct (tagged_words_ok Dt I) as (c & i & H); exact (bob_tagged H)]]. intros l r x I.
  destruct (combinations_ok SN Dt I) as (Pl & Pr & xs & Ec & Ix). destruct (sound Or Pl Pr Ec Ix) as (Tb & _ & Oc). split; [exact Oc|]. split; [exact Tb|]. exact (outcome_proper PL PR Pl Pr Oc).
Qed.
Print Assumptions C85_bobcat.
(** A word without supertags does not make the parser fail: it answers with trees over the words before it, whatever their category. *)
Theorem C85_untagged_refuted : ~ (forall roots b max_trees st ws ts, 1 <= b -> List.length (tags st) = List.length (words st) -> ex_parse roots b max_trees st = Ok (ws, ts) -> ts <> [] -> ws = words st).
Proof.
  intro H. destruct (ex_parse (Some [ex_s ""]) 3 None (ex_sent [[("NP", Some 1%Z)]; []])) as [[ws ts]|] eqn:E; [|vm_compute in E; discriminate].
  specialize (H (Some [ex_s ""]) 3 None (ex_sent [[("NP", Some 1%Z)]; []]) ws ts ltac:(lia) (Logic.eq_refl _) E). vm_compute in E. injection E as <- <-. specialize (H ltac:(discriminate)). discriminate.
Qed.
Print Assumptions C85_untagged_refuted.
Theorem C85_untagged_root_refuted : exists t, ex_parse (Some [ex_s ""]) 3 None (ex_sent [[("NP", Some 1%Z)]; []]) = Ok (["John"], t) /\ exists x, In x t /\ t_cat x = ex_np /\ ~ root_ok (Some [ex_s ""]) x.
Proof.
  destruct (ex_parse (Some [ex_s ""]) 3 None (ex_sent [[("NP", Some 1%Z)]; []])) as [[ws ts]|] eqn:E; vm_compute in E; [|discriminate]. injection E as <- <-. eexists. split; [reflexivity|]. eexists. split; [left; reflexivity|]. split; [reflexivity|].
  intros (c & [<-|[]] & M). vm_compute in M. discriminate.
Qed.
Print Assumptions C85_untagged_root_refuted.
Example C85_example : (forall b, 1 <= b -> sane zlt zadd None ex_eqc ex_same (bob_lexical ex_cats) (fun l r => combine (fun l => l) l r true (fun _ _ => []) (fun _ _ => []) (fun _ _ => true)) (bob_change ex_eqc []) (bob_raise ex_eqc [(ex_np, [ex_tr])]) b (fun x => proper (p_cat x))) /\
  rmap (fun p => (fst p, map (fun t => (yield_ t, skeleton (t_cat t), t_score t)) (snd p))) (ex_parse (Some [ex_s ""]) 3 None (ex_sent C85_tags)) = Ok (["John"; "sleeps"], [([("John", 1); ("sleeps", 2)], KA AS, Some 8%Z)]).
Proof. split; [exact ex_sane|vm_compute; reflexivity]. Qed.
