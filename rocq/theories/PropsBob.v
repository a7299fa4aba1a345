(** C64, C65: Bobcat's categories and its combination rules. *)
From Coq Require Import Ascii.
From Verif Require Import PyBase BobModel BobSpec BobFacts.
Open Scope string_scope. Set Implicit Arguments. Unset Strict Implicit.

(** ** C64 *)
(** [==] holds exactly for categories with the same shape, slashes, atoms and features, S and S[X] counting as one; whatever Python's hash function does. *)
Theorem C64_equality : forall ha hs a b, proper a -> (c_equals ha hs a b = true <-> same a b).
Proof. exact (fun ha hs a b P => equals_iff ha hs b P). Qed.
Print Assumptions C64_equality.
Theorem C64_equivalence : forall ha hs a b c, proper a -> proper b -> proper c ->
  c_equals ha hs a a = true /\ (c_equals ha hs a b = true -> c_equals ha hs b a = true) /\
  (c_equals ha hs a b = true -> c_equals ha hs b c = true -> c_equals ha hs a c = true).
Proof.
  intros ha hs a b c Pa Pb Pc. rewrite !equals_iff by assumption. split; [apply same_refl | split; [apply same_sym | apply same_trans]].
Qed.
Print Assumptions C64_equivalence.
Theorem C64_hash : forall ha hs a b, proper a -> c_equals ha hs a b = true -> c_hash ha hs a = c_hash ha hs b.
Proof. intros ha hs a b P H. apply same_hash. revert H. now apply equals_iff. Qed.
Print Assumptions C64_hash.
(** the slash constructor: equal parts give equal categories and conversely, variables and relations not counting *)
Theorem C64_slash : forall ha hs a d x v rel tr a' d' x' v' rel' tr', proper a -> proper x -> d = "/"%char \/ d = "\"%char ->
  (c_equals ha hs (slash a d x v rel tr) (slash a' d' x' v' rel' tr') = true <-> d = d' /\ c_equals ha hs a a' = true /\ c_equals ha hs x x' = true).
Proof.
  intros ha hs a d x v rel tr a' d' x' v' rel' tr' Pa Px D. unfold slash. rewrite !equals_iff by (try assumption; now constructor).
  split; [intros H; inversion H; subst; auto | intros (-> & H1 & H2); now constructor].
Qed.
Print Assumptions C64_slash.
Theorem C64_matches : forall t c, proper t -> (c_matches t c = true <-> fills t c).
Proof. exact (fun t c P => matches_iff c P). Qed.
Print Assumptions C64_matches.
(** [match_rule]: the rules of the first equal key; failing that, of the first key that matches; failing that, none *)
Theorem C64_match_rule : forall ha hs (T : Type) (rules : list (cat * list T)) c, Forall (fun p => proper (fst p)) rules ->
  (exists before k v after, rules = (before ++ (k, v) :: after)%list /\ same k c /\ (forall p, In p before -> ~ same (fst p) c) /\ match_rule (c_equals ha hs) rules c = v) \/
  ((forall p, In p rules -> ~ same (fst p) c) /\
   ((exists before k v after, rules = (before ++ (k, v) :: after)%list /\ fills k c /\ (forall p, In p before -> ~ fills (fst p) c) /\ match_rule (c_equals ha hs) rules c = v) \/
    ((forall p, In p rules -> ~ fills (fst p) c) /\ match_rule (c_equals ha hs) rules c = []))).
Proof. exact match_rule_ok. Qed.
Print Assumptions C64_match_rule.
(** The documentation of [matches] says it is like [==] but that a missing feature matches everything; yet S[X] == S and S[X] does not match S. *)
Theorem C64_matches_like_equality_refuted : ~ (forall ha hs a b, proper a -> proper b -> c_equals ha hs a b = true -> c_matches a b = true).
Proof.
  intros H. specialize (H (fun _ _ => 0%Z) (fun _ _ _ => 0%Z) (At AS "X" 1 None) (At AS "" 1 None)). cbn in H. discriminate H; try reflexivity; constructor; discriminate.
Qed.
Print Assumptions C64_matches_like_equality_refuted.
Example C64_example : proper (vp "X") /\ proper (Sl "/" (vp "X") np 2 None 0) /\ same (vp "X") (vp "") /\ ~ same (vp "dcl") (vp "") /\ fills (vp "") (vp "dcl") /\ ~ fills (vp "X") (vp "dcl")
  /\ c_equals (fun _ _ => 0%Z) (fun _ _ _ => 0%Z) (vp "X") (vp "") = true /\ c_matches (vp "") (vp "dcl") = true.
Proof.
  split; [|split; [|split; [|split; [|split; [|split; [|split; reflexivity]]]]]].
  - constructor; [now right | constructor; discriminate..].
  - constructor; [now left | | constructor; discriminate]. constructor; [now right | constructor; discriminate..].
  - constructor; constructor; [right; unfold free; auto | now left].
  - intros H. inversion H; subst. match goal with K : same (At AS _ _ _) _ |- _ => inversion K; subst end. unfold free in *. intuition discriminate.
  - constructor; constructor; auto.
  - intros H. inversion H; subst. match goal with K : fills (At AS _ _ _) _ |- _ => inversion K; subst end. intuition discriminate.
Qed.

(** ** C65 *)
(** Every tree [combine] returns has the two given trees as its children, the pair of categories is one the grammar allows,
    and its category is the one the rule it is labelled with prescribes ([outcome], [combined], [prescribed] in BobSpec.v). *)
Theorem C65_sound : forall order l r eisner pl pr tbl ts t, (forall vs v, In v (order vs) <-> In v vs) -> proper (p_cat l) -> proper (p_cat r) ->
  combine order l r eisner pl pr tbl = Ok ts -> In t ts -> tbl (p_cat l) (p_cat r) = true /\ children t = (Some l, Some r) /\ outcome pl pr l r t.
Proof. exact sound. Qed.
Print Assumptions C65_sound.
(** Up to features, application and composition are the textbook rules. *)
Theorem C65_textbook : forall order l r eisner pl pr tbl ts t, (forall vs v, In v (order vs) <-> In v vs) -> proper (p_cat l) -> proper (p_cat r) ->
  combine order l r eisner pl pr tbl = Ok ts -> In t ts -> In (p_rule t) [RFA; RBA; RFC; RBC; RBX; RGFC; RGBX] ->
  textbook (p_rule t) (skeleton (p_cat l)) (skeleton (p_cat r)) (skeleton (p_cat t)).
Proof. exact textbook_ok. Qed.
Print Assumptions C65_textbook.
(** Generalised backward composition: right only when the functor's result is its argument. *)
Theorem C65_generalised_backward_partial : forall order l r eisner pl pr tbl ts t, (forall vs v, In v (order vs) <-> In v vs) -> proper (p_cat l) -> proper (p_cat r) ->
  combine order l r eisner pl pr tbl = Ok ts -> In t ts -> p_rule t = RGBC -> (exists Y, skeleton (p_cat r) = Y \\ Y) ->
  textbook RGBC (skeleton (p_cat l)) (skeleton (p_cat r)) (skeleton (p_cat t)).
Proof. exact gbc_textbook. Qed.
Print Assumptions C65_generalised_backward_partial.
(** The instantiated feature is one opposite an [X]; when all the features opposite an [X] are the same, the unified categories have the same features after instantiation. *)
Theorem C65_features_partial : forall order l r eisner pl pr tbl ts t, (forall vs v, In v (order vs) <-> In v vs) -> proper (p_cat l) -> proper (p_cat r) ->
  combine order l r eisner pl pr tbl = Ok ts -> In t ts -> In (p_rule t) [RFA; RBA; RFC; RBC; RBX; RGFC; RGBX] ->
  exists rl rr g yl yr, prescribed rl rr g (p_rule t) (p_cat l) (p_cat r) yl yr (p_cat t) /\ unifiable yl yr /\ (g = "" \/ In g (bindings yl yr)) /\
    ((forall x y, In x (bindings yl yr) -> In y (bindings yl yr) -> x = y) -> agree g yl yr).
Proof. exact features_ok. Qed.
Print Assumptions C65_features_partial.
(** Application succeeds exactly when the argument unifies with the other category. *)
Theorem C65_forward_application : forall order l r eisner X Y v rel tr, (forall vs v, In v (order vs) <-> In v vs) ->
  proper (p_cat l) -> proper (p_cat r) -> marked_up (p_cat l) -> p_cat l = Sl "/" X Y v rel tr ->
  ~ coordinated_or_raised r -> ~ (eisner = true /\ In (p_rule l) [RFC; RGFC]) -> (forall a b, facing Y (p_cat r) a b -> ~ (filled l a /\ filled r b)) ->
  ((exists t, forward_application order l r eisner = Ok (Some t)) <-> unifiable Y (p_cat r)).
Proof. exact (fun o l r e X Y v rel tr O Pl Pr Ml => @forward_iff o l r O Pl Pr Ml e X Y v rel tr). Qed.
Print Assumptions C65_forward_application.
Theorem C65_backward_application : forall order l r eisner X Y v rel tr, (forall vs v, In v (order vs) <-> In v vs) ->
  proper (p_cat l) -> proper (p_cat r) -> marked_up (p_cat r) -> p_cat r = Sl "\" X Y v rel tr ->
  ~ coordinated_or_raised l -> ~ (eisner = true /\ In (p_rule r) [RBC; RGBC]) -> (forall a b, facing (p_cat l) Y a b -> ~ (filled l a /\ filled r b)) ->
  ((exists t, backward_application order l r eisner = Ok (Some t)) <-> unifiable (p_cat l) Y).
Proof. exact (fun o l r e X Y v rel tr O Pl Pr Mr => @backward_iff o l r O Pl Pr Mr e X Y v rel tr). Qed.
Print Assumptions C65_backward_application.
(** No exception, when every part of both categories carries a variable. *)
Theorem C65_total : forall order l r eisner pl pr tbl, (forall vs v, In v (order vs) <-> In v vs) ->
  proper (p_cat l) -> proper (p_cat r) -> marked_up (p_cat l) -> marked_up (p_cat r) -> exists ts, combine order l r eisner pl pr tbl = Ok ts.
Proof. exact (fun o l r e pl pr tbl O Pl Pr Ml Mr => combine_fine O Pl Pr Ml Mr e pl pr tbl). Qed.
Print Assumptions C65_total.
(** Eisner's normal form and the restrictions on coordinated and type-raised constituents. *)
Theorem C65_normal_form : forall order l r eisner pl pr tbl ts t, (forall vs v, In v (order vs) <-> In v vs) -> proper (p_cat l) -> proper (p_cat r) ->
  combine order l r eisner pl pr tbl = Ok ts -> In t ts -> normal_form eisner l r t.
Proof. exact nf_ok. Qed.
Print Assumptions C65_normal_form.
(** ** What does not hold *)
(** Generalised backward composition of (S[dcl]\S[dcl])\NP with NP\S[dcl] gives (S[dcl]\S[dcl])\NP, where the rule prescribes (NP\S[dcl])\NP. *)
Theorem C65_generalised_backward_refuted : ~ (forall order l r eisner pl pr tbl ts t, (forall vs v, In v (order vs) <-> In v vs) -> proper (p_cat l) -> proper (p_cat r) ->
  combine order l r eisner pl pr tbl = Ok ts -> In t ts -> p_rule t = RGBC -> textbook RGBC (skeleton (p_cat l)) (skeleton (p_cat r)) (skeleton (p_cat t))).
Proof. exact (fun H => gbc_bad (fun ts t => H same_order gbc_l gbc_r true none none yes ts t (fun vs v => iff_refl _))). Qed.
Print Assumptions C65_generalised_backward_refuted.
(** X is not instantiated consistently: (S[X]\S[X])/(S[X]\S[X]) applies to S[dcl]\S[b], and the later binding wins. *)
Theorem C65_features_refuted : exists ts t, combine same_order fa_l fa_r true none none yes = Ok ts /\ In t ts /\ p_rule t = RFA /\ c_res (p_cat t) = Some (At AS "b" 1 None) /\
  forall g, ~ agree g (two "X" "X" 1 2 4) (p_cat fa_r).
Proof. exact feat_bad. Qed.
Print Assumptions C65_features_refuted.
(** a later [X] opposite [X] cancels the binding of an earlier one: (S[X]\S[X])/(S[X]\S[X]) applied to S[dcl]\S[X] is S[X]\S[X], though X = dcl makes both sides agree *)
Theorem C65_instantiation_refuted : exists ts t, combine same_order fa_l fa_r2 true none none yes = Ok ts /\ In t ts /\ p_rule t = RFA /\ c_res (p_cat t) = Some (At AS "X" 1 None) /\
  agree "dcl" (two "X" "X" 1 2 4) (p_cat fa_r2) /\ ~ agree "" (two "X" "X" 1 2 4) (p_cat fa_r2).
Proof. exact cancel_bad. Qed.
Print Assumptions C65_instantiation_refuted.
(** A part without a variable makes the rule raise KeyError: ((S/NP)/N) applied to N, the part S/NP carrying no variable. *)
Theorem C65_unmarked_refuted : ~ (forall order l r eisner pl pr tbl, (forall vs v, In v (order vs) <-> In v vs) ->
  proper (p_cat l) -> proper (p_cat r) -> exists ts, combine order l r eisner pl pr tbl = Ok ts).
Proof. exact unmarked_bad. Qed.
Print Assumptions C65_unmarked_refuted.
(** ** Non-vacuity: every rule fires on some pair of trees *)
Example C65_example :
  map (fun p => rmap (map (fun t => (p_rule t, skeleton (p_cat t)))) (combine same_order (fst p) (snd p) true none none yes)) C65_pairs =
  [Ok [(RFA, KA ANP)]; Ok [(RBA, KA AS)]; Ok [(RFC, KA AS // KA ANP)]; Ok [(RBC, KA AS \\ KA ANP)]; Ok [(RBX, (KA AS \\ KA ANP) // KA ANP)];
   Ok [(RGFC, KA APP // KA ANP // KA APP)]; Ok [(RGFC, KA APP // KA ANP // KA APP // KA AN)]; Ok [(RGBX, KA APP // KA ANP // KA APP)]; Ok [(RGBX, KA APP // KA ANP // KA APP // KA AN)];
   Ok [(RCONJ, KA AN \\ KA AN); (RADJ, KA AN)]; Ok [(RLP, KA AN); (RCONJ, KA AN \\ KA AN)]; Ok [(RRP, KA AN)]].
Proof. vm_compute. reflexivity. Qed.
Example C65_pairs_fine : Forall (fun p => proper (p_cat (fst p)) /\ proper (p_cat (snd p)) /\ marked_up (p_cat (fst p)) /\ marked_up (p_cat (snd p))) C65_pairs.
Proof. exact pairs_fine. Qed.
