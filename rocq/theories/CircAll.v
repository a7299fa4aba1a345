(** The whole of [text2circuit] (C71, lemmas only). *)
From Coq Require Import Permutation Sorted.
From Verif Require Import PyBase PyFacts TyModel TyFacts DiagModel DiagSpec DiagFacts DiagMisc MiscModel MiscSpec MiscFacts TreeModel TreeSpec TreeFacts TreeRew CircModel CircSpec CircPerm CircRun CircMatch CircStep CircFrames CircSand CircWord CircSlots CircText CircPrep CircPrune.
Close Scope string_scope. Set Implicit Arguments. Unset Strict Implicit.

Lemma entity_ok corefs i z : entity_of corefs i z (resolve (dict_from_corefs corefs) (i, Some z)).
Proof.
  unfold resolve. destruct (Z.ltb_spec z 0) as [L|L]; [right; split; [intros j c E; lia | reflexivity]|]. destruct (d_get _ _ _) as [[a b]|] eqn:E.
  - left. exists (Z.to_nat z), (a, b). split; [lia|]. split; [now apply refers_get | reflexivity].
  - right. split; [|reflexivity]. intros j c -> Hc M. rewrite Nat2Z.id in E. destruct (dict_some Hc M) as (r & Er). congruence.
Qed.
Lemma frames_words pruned n : arguments (n_typ n) = [] -> diagram_words (piece_diag (fst (fst (frames_rec pruned n)))) = shown pruned n.
Proof.
  intros _. assert (H := frames_rec_spec pruned n). destruct (frames_rec pruned n) as [[pc ns] is]. destruct H as (_ & _ & W & _). rewrite <- W. destruct pc; [reflexivity|]. cbn. unfold diagram_words. cbn. apply app_nil_r.
Qed.
Definition part_ok (sandwich : bool) corefs (ps : list nat) i t (x : diagram * list box * list ent) : Prop := (if sandwich then sandwich_part else frames_part) corefs (map Z.of_nat ps) i t x.
Lemma part_frames fol corefs ps i t : arguments (n_typ t) = [] -> exists d ns zs, tree2circuital false fol (map Z.of_nat ps) t = Ok (d, ns, zs) /\ let x := (d, ns, map (fun nid => resolve (dict_from_corefs corefs) (i, nid)) zs) in fits x /\ part_ok false corefs ps i t x.
Proof.
  intros A. unfold tree2circuital. assert (H := frames_rec_spec (map Z.of_nat ps) t). assert (Wd := frames_words (map Z.of_nat ps) A). destruct (frames_rec (map Z.of_nat ps) t) as [[pc ns] is]. destruct H as (Hn & Hi & _ & _ & _ & T). exists (piece_diag pc), ns, (map Some is). split; [reflexivity|]. cbv zeta.
  assert (Ln : List.length ns = List.length is) by (rewrite Hn, Hi, !map_length; reflexivity). split; [|split; [exact Hn | split; [|exact Wd]]].
  - unfold fits. rewrite !map_length, <- Ln. split; [now apply T|]. split; [reflexivity|]. rewrite Hn. intros b Hb. apply in_map_iff in Hb. destruct Hb as (m & <- & _). eexists. reflexivity.
  - rewrite Hi, !map_map. clear. induction (noun_slots (map Z.of_nat ps) t) as [|m l IH]; constructor; [apply entity_ok | exact IH].
Qed.
Lemma part_sandwich fol corefs ps i t : exists d ns zs, tree2circuital true fol (map Z.of_nat ps) t = Ok (d, ns, zs) /\ let x := (d, ns, map (fun nid => resolve (dict_from_corefs corefs) (i, nid)) zs) in fits x /\ part_ok true corefs ps i t x.
Proof.
  unfold tree2circuital. destruct (sand_good (map Z.of_nat ps) fol t None) as ([[[d ns] zs] cand] & E & (T & N & L)). assert (H := slots_ok E). exists d, ns, zs. rewrite E. split; [reflexivity|]. cbv zeta. destruct H as (F & _ & B & X).
  assert (Fe : forall l : list (option Z * box), filter (but None) l = filter (fun p => match fst p with Some _ => true | None => false end) l) by (intros l; apply filter_ext; intros [[z|] b]; reflexivity). rewrite !Fe in F.
  split.
  - unfold fits. rewrite map_length. split; [exact T|]. split; [congruence|]. intros b Hb. apply In_nth_error in Hb. destruct Hb as (k & Hk). destruct (nth_error zs k) as [z|] eqn:Ez; [|apply nth_error_None in Ez; assert (k < List.length ns) by (apply nth_error_Some; congruence); lia].
    rewrite Forall_forall in X. specialize (X (z, b)). apply X. clear -Hk Ez. revert ns zs Hk Ez. induction k as [|k IH]; intros [|b0 ns] [|z0 zs] Hk Ez; try discriminate; cbn in *; [left; congruence | right; now apply IH].
  - unfold part_ok, sandwich_part. exists zs. split; [congruence|]. split; [exact N|]. split; [|split].
    + rewrite F. transitivity (news opt_eqb [] (leaf_pairs (map Z.of_nat ps) t)); [|reflexivity]. assert (G : forall p, In p (news opt_eqb [] (leaf_pairs (map Z.of_nat ps) t)) -> (match fst p with Some _ => true | None => false end) = true).
      { intros p Hp. apply (news_sub (eqk := opt_eqb)) in Hp. unfold leaf_pairs in Hp. apply in_map_iff in Hp. destruct Hp as (m & <- & _). reflexivity. }
      revert G. generalize (news opt_eqb [] (leaf_pairs (map Z.of_nat ps) t)). induction l as [|p l IH]; intros G; [reflexivity|]. cbn [filter]. rewrite (G p (or_introl eq_refl)). f_equal. apply IH. intros q Hq. apply G. now right.
    + clear. induction zs as [|[z|] zs IH]; constructor; auto. apply entity_ok.
    + intros b Hb. rewrite Forall_forall in B. destruct (B _ Hb eq_refl) as (_ & P & Eb). auto.
Qed.
Lemma fold_prepare A (f : nat -> list string -> node -> res A) B (g : B -> A -> res B) : forall sents parsed xs k s0, List.length parsed = List.length sents -> List.length xs = List.length sents ->
  (forall i s t x, nth_error sents i = Some s -> nth_error parsed i = Some t -> nth_error xs i = Some x -> f (k + i) s t = Ok x) ->
  foldM (fun st '(i, (s, t)) => do x <- f i s t; g st x) (combine (seq k (List.length (combine sents parsed))) (combine sents parsed)) s0 = foldM g xs s0.
Proof.
  induction sents as [|s sents IH]; intros [|t parsed] [|x xs] k s0 Lp Lx H; try discriminate; [reflexivity|]. cbn [combine List.length seq foldM]. assert (E := H 0 s t x eq_refl eq_refl eq_refl). rewrite Nat.add_0_r in E. rewrite E. cbn [bind]. destruct (g s0 x) as [s1|e]; [|reflexivity]. cbn [bind].
  apply IH; cbn in *; try lia. intros i s' t' x' A1 A2 A3. assert (Y := H (S i) s' t' x' A1 A2 A3). rewrite Nat.add_succ_r in Y. exact Y.
Qed.
Section Whole.
  Variables (sents : list (list string)) (corefs : list (list (list nat))) (parsed : list node) (sandwich : bool) (ws : list string) (min : Z) (rr : option (list (rule + string))) (rules : list rule) (fol : bool).
  Hypotheses (Lp : List.length parsed = List.length sents) (Lc : forall c, In c corefs -> List.length c = List.length sents) (Mc : forall c m, In c corefs -> mentions c m -> exists w, word_at sents m w).
  Hypothesis (Nn : forall i s t, nth_error sents i = Some s -> nth_error parsed i = Some t -> s <> [] /\ forall m, In m (subtrees t) -> (0 <= n_ind m)%Z).
  Hypothesis (Hr : init_rules rr = (rules, Ok tt)).
  Lemma fix_root_pos (s : list string) t : s <> [] -> (forall m, In m (subtrees t) -> (0 <= n_ind m)%Z) -> forall m, In m (subtrees (fix_root (List.length s) t)) -> (0 <= n_ind m)%Z.
  Proof.
    intros Ns H m Hm. destruct t as [w i t p cs]. cbn [fix_root] in Hm. destruct (ty_eqb t [a_s] || ty_eqb t [a_n]); [now apply H|]. rewrite subtrees_node in Hm. destruct Hm as [<- | Hm]; [apply (H (Node w i t p cs)); rewrite subtrees_node; now left|].
    rewrite map_app, concat_app in Hm. apply in_app_or in Hm. destruct Hm as [Hm | Hm]; [apply H; rewrite subtrees_node; now right|]. cbn in Hm. destruct Hm as [<- | []]. cbn. destruct s; [congruence|]. cbn [List.length]. lia.
  Qed.
  Lemma text_ok : exists pruned xs, List.length pruned = List.length sents /\ (forall i j, mentions pruned (i, j) <-> exists w, dropped sents corefs ws min w /\ pruned_by sents corefs w i j) /\ List.length xs = List.length sents /\
    (forall i s p ps d ns es, nth_error sents i = Some s -> nth_error parsed i = Some p -> nth_error pruned i = Some ps -> nth_error xs i = Some (d, ns, es) ->
       exists t zs, sentence_tree (rewrite_all rules) s p t /\ tree2circuital sandwich fol (map Z.of_nat ps) t = Ok (d, ns, zs) /\ fits (d, ns, es) /\ part_ok sandwich corefs ps i t (d, ns, es)) /\
    match xs with
    | (_, _, []) :: _ => text2circuit sents corefs parsed sandwich ws min rr fol = Err ValueError
    | _ => exists d, text2circuit sents corefs parsed sandwich ws min rr fol = Ok d /\ typed d [] (nouns_ty (List.length (entities ent_eqb xs))) /\
        forall V (bsem : box -> list V -> list V) merge, reading bsem merge -> drun bsem d [] = snd (text_run ent_eqb bsem merge xs)
    end.
  Proof.
    destruct (@all_pruned_ok sents corefs ws min Lc Mc) as (pruned & Ep & Lpr & Hp). exists pruned.
    assert (P : forall i s t, nth_error sents i = Some s -> nth_error parsed i = Some t -> exists ps x t' zs, nth_error pruned i = Some ps /\ prepare rules sandwich fol (dict_from_corefs corefs) pruned i s t = Ok x /\ sentence_tree (rewrite_all rules) s t t' /\ tree2circuital sandwich fol (map Z.of_nat ps) t' = Ok (fst x, zs) /\ fits x /\ part_ok sandwich corefs ps i t' x).
    { intros i s t Hs Ht. destruct (Nn Hs Ht) as [Ns Pos]. assert (Li : i < List.length pruned) by (rewrite Lpr; apply nth_error_Some; congruence). destruct (nth_error pruned i) as [ps|] eqn:Eps; [|apply nth_error_None in Eps; lia].
      destruct (@tree_ok rules fol (dict_from_corefs corefs) pruned i s t ps (fix_root_pos Ns Pos) Eps) as (t' & St & A & E). specialize (E sandwich).
      assert (Q : exists d ns zs, tree2circuital sandwich fol (map Z.of_nat ps) t' = Ok (d, ns, zs) /\ let x := (d, ns, map (fun nid => resolve (dict_from_corefs corefs) (i, nid)) zs) in fits x /\ part_ok sandwich corefs ps i t' x) by (destruct sandwich; [apply part_sandwich | now apply part_frames]).
      destruct Q as (d & ns & zs & Eq & F & Pk). rewrite Eq in E. cbn [bind] in E. exists ps, (d, ns, map (fun nid => resolve (dict_from_corefs corefs) (i, nid)) zs), t', zs. repeat (split; [assumption || reflexivity|]). exact Pk. }
    assert (Q : forall n, n <= List.length sents -> exists xs, List.length xs = n /\ forall i s t x, nth_error sents i = Some s -> nth_error parsed i = Some t -> nth_error xs i = Some x -> exists ps t' zs, nth_error pruned i = Some ps /\ prepare rules sandwich fol (dict_from_corefs corefs) pruned i s t = Ok x /\ sentence_tree (rewrite_all rules) s t t' /\ tree2circuital sandwich fol (map Z.of_nat ps) t' = Ok (fst x, zs) /\ fits x /\ part_ok sandwich corefs ps i t' x).
    { induction n as [|n IH]; intros Hn; [exists []; split; [reflexivity|]; intros [|i]; discriminate|]. destruct IH as (xs & Lx & H); [lia|]. destruct (nth_error sents n) as [s|] eqn:Es; [|apply nth_error_None in Es; lia]. destruct (nth_error parsed n) as [t|] eqn:Et; [|apply nth_error_None in Et; lia].
      destruct (P n s t Es Et) as (ps & x & t' & zs & Y). exists (xs ++ [x]). split; [rewrite app_length; cbn; lia|]. intros i s' t'' x' Hs Ht Hx. destruct (Nat.lt_ge_cases i (List.length xs)) as [Li | Li].
      - rewrite nth_error_app1 in Hx by exact Li. now apply (H i s' t'' x').
      - rewrite nth_error_app2 in Hx by exact Li. assert (i = n) as -> by (destruct (i - List.length xs) eqn:Ei; [lia | now destruct n0]). rewrite Lx, Nat.sub_diag in Hx. injection Hx as <-. rewrite Es in Hs. rewrite Et in Ht. injection Hs as <-. injection Ht as <-. eauto. }
    destruct (Q _ (Nat.le_refl _)) as (xs & Lx & H). exists xs. split; [exact Lpr|]. split; [exact Hp|]. split; [exact Lx|]. split.
    { intros i s p ps d ns es A1 A2 A3 A4. destruct (H i s p _ A1 A2 A4) as (ps' & t' & zs & B1 & B2 & B3 & B4 & B5 & B6). rewrite A3 in B1. injection B1 as <-. exists t', zs. auto. }
    assert (Fx : Forall (@fits ent) xs). { apply Forall_forall. intros x Hx. apply In_nth_error in Hx. destruct Hx as (i & Hx). assert (Li : i < List.length sents) by (rewrite <- Lx; apply nth_error_Some; congruence). destruct (nth_error sents i) as [s|] eqn:Es; [|apply nth_error_None in Es; lia]. destruct (nth_error parsed i) as [t|] eqn:Et; [|apply nth_error_None in Et; lia]. destruct (H i s t x Es Et Hx) as (ps' & t' & zs & B1 & B2 & B3 & B4 & B5 & B6). exact B5. }
    assert (E : text2circuit sents corefs parsed sandwich ws min rr fol = do (st : diagram * list (ent * nat) * list box) <- foldM circ_step xs (id [], [], []); let '(big, _, boxes) := st in d_then (tensor_list (id []) (map to_diag boxes)) big).
    { unfold text2circuit. rewrite Ep. cbn [bind]. rewrite Hr. cbn [bind]. unfold enum. rewrite (@fold_prepare _ (prepare rules sandwich fol (dict_from_corefs corefs) pruned) _ circ_step sents parsed xs 0 (id [], [], [])); auto. intros i s t x A1 A2 A3. cbn [Nat.add]. destruct (H i s t x A1 A2 A3) as (ps' & t' & zs & B1 & B2 & _). exact B2. }
    rewrite E. destruct xs as [|[[d ns] [|e es]] xs].
    - destruct (@circuit_ok [] I Fx) as (d & Ed & T & Sm). eauto.
    - rewrite (@circuit_empty d ns xs (Forall_inv Fx)). reflexivity.
    - destruct (@circuit_ok ((d, ns, e :: es) :: xs)) as (d' & Ed & T & Sm); [cbn; discriminate | exact Fx | eauto].
  Qed.
End Whole.
Lemma first_slot_eq pruned t prev : first_slot pruned t prev = given pruned t prev.
Proof.
  unfold first_slot, given, has_noun_arg. assert (E : existsb (fun a : atom => (fst a =? "n")%string && (Z.abs (snd a) =? 1)%Z) t = existsb (fun a : atom => (fst a =? "n")%string && ((snd a =? 1)%Z || (snd a =? -1)%Z)) t).
  { induction t as [|[x z] t IH]; [reflexivity|]. cbn [existsb fst snd]. rewrite IH. f_equal. f_equal. destruct (Z.eqb_spec (Z.abs z) 1), (Z.eqb_spec z 1), (Z.eqb_spec z (-1)); auto; lia. }
  rewrite E. destruct prev; destruct pruned; reflexivity.
Qed.
Lemma word_spec pruned fol w i t p cs prev : bare_noun (Node w i t p cs) = false -> exists rs cur, parts (sand_rec pruned fol) prev cs rs cur /\
  let es := joined_slots (first_slot pruned t prev) rs in
  match es with
  | [] => sand_rec pruned fol (Node w i t p cs) prev = Ok (id [], [], [], cur)
  | _ => exists d, sand_rec pruned fol (Node w i t p cs) prev = Ok (d, map snd es, map fst es, cur) /\ typed d (nouns_ty (List.length es)) (nouns_ty (List.length es)) /\
      forall V (bsem : box -> list V -> list V) merge, reading bsem merge -> forall vs, List.length vs = List.length es -> drun bsem d vs = sandwich_run bsem merge w fol (map fst es) (shown_parts (first_slot pruned t prev) rs) vs
  end.
Proof.
  intros B. destruct (@word_ok pruned fol w i t p cs prev) as (rs & cur & P & _ & H); [apply Forall_forall; intros c _; apply sand_good | exact B|]. exists rs, cur. split; [exact P|]. rewrite first_slot_eq. exact H.
Qed.
Lemma bare_spec pruned fol w i t p prev : bare_noun (Node w i t p []) = true -> sand_rec pruned fol (Node w i t p []) prev = Ok (if existsb (Z.eqb i) pruned then (id [], [], [], prev) else (id [a_n], [Box w [] [a_n] 0], [Some i], Some i)).
Proof. intros B. rewrite bare_eq in B. cbn [sand_rec]. rewrite B. cbn [andb]. unfold memZ. now destruct (existsb _ _). Qed.
Lemma frames_spec fol pruned t : arguments (n_typ t) = [] -> exists d, tree2circuital false fol pruned t = Ok (d, map noun_box (noun_slots pruned t), map (fun m => Some (n_ind m)) (noun_slots pruned t)) /\
  typed d (nouns_ty (List.length (noun_slots pruned t))) (nouns_ty (List.length (noun_slots pruned t))) /\ diagram_words d = shown pruned t.
Proof.
  intros A. unfold tree2circuital. assert (H := frames_rec_spec pruned t). assert (Wd := frames_words pruned A). destruct (frames_rec pruned t) as [[pc ns] is]. destruct H as (Hn & Hi & _ & _ & _ & T). exists (piece_diag pc). rewrite Hi, map_map, <- Hn. split; [reflexivity|]. split; [|exact Wd]. replace (List.length (noun_slots pruned t)) with (List.length ns) by (rewrite Hn; apply map_length). now apply T.
Qed.
