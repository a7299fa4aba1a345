(** Proofs about the chart parser (C85). *)
From Verif Require Import PyBase PyFacts BobModel ChModel ChSpec ChCell.
Close Scope string_scope. Set Implicit Arguments. Unset Strict Implicit.
Section Facts.
  Variables (Sc : Type) (ltb : Sc -> Sc -> bool) (add : Sc -> Sc -> Sc) (ninf : Sc) (eqc : cat -> cat -> bool) (is_same : stree Sc -> stree Sc -> bool).
  Variables (lexical : string -> string -> nat -> res ptree) (combine : ptree -> ptree -> res (list ptree)) (change raise_ : ptree -> list ptree).
  Variables (roots : option (list cat)) (rid : string -> list cat -> option nat) (missing_cat missing_span unset : Sc) (weigh : Sc -> Sc) (b : nat) (max_trees : option Z).
  Variable node : ptree -> Prop.
  Hypothesis SN : sane ltb add ninf eqc is_same lexical combine change raise_ b node.
  Variable st : sentence Sc.
  Notation stree := (stree Sc).
  Notation chart := (chart Sc).
  Notation n := (List.length (words st)).
  Notation t_cat := (@t_cat Sc). Notation t_score := (@t_score Sc).
  Notation derives := (derives add lexical combine change raise_ rid missing_cat missing_span weigh st).
  Notation points := (points missing_cat missing_span st).
  Notation binary_id := (binary_id rid).
  Notation bare := (bare add).
  Notation calc := (calc add rid missing_cat missing_span).
  Notation unaries := (unaries change raise_ unset).
  Notation filter_root := (filter_root roots).
  Notation chart_add := (chart_add ltb ninf eqc is_same b).
  Notation lex_word := (lex_word ltb add ninf eqc is_same lexical change raise_ roots rid missing_cat missing_span unset weigh b st).
  Notation lex_all := (lex_all ltb add ninf eqc is_same lexical change raise_ roots rid missing_cat missing_span unset weigh b st).
  Notation rights := (rights ltb add ninf eqc is_same combine change raise_ roots rid missing_cat missing_span unset b st).
  Notation split_at := (split_at ltb add ninf eqc is_same combine change raise_ roots rid missing_cat missing_span unset b st).
  Notation one_span := (one_span ltb add ninf eqc is_same combine change raise_ roots rid missing_cat missing_span unset b st).
  Notation ends := (ends ltb add ninf eqc is_same combine change raise_ roots rid missing_cat missing_span unset b max_trees st).
  Notation span_score := (span_score missing_cat missing_span).
  Notation max_of := (max_of ltb missing_cat missing_span).
  Definition good (c : cat) : Prop := exists x, node x /\ c = p_cat x.
  Notation cinv := (cinv t_cat t_score ltb ninf eqc good b).
  (** ** derivations *)
  Lemma derives_range s e t : derives s e t -> s <= e < n.
  Proof.
    induction 1; try lia. assert (i < n) by (apply nth_error_Some; congruence). lia.
  Qed.
  Lemma derives_node s e t : derives s e t -> node (t_node t).
  Proof.
    induction 1; cbn [t_node] in *.
    - eapply (sn_lexical SN); eauto.
    - eapply (sn_combine SN); [apply IHderives1|apply IHderives2| |]; eauto.
    - eapply (sn_change SN); [apply IHderives|]; auto.
    - eapply (sn_raise SN); [apply IHderives|]; auto.
    - eapply (sn_raise SN); [apply IHderives|]; auto.
  Qed.
  Lemma derives_good s e t : derives s e t -> good (t_cat t).
  Proof. intro D. exists (t_node t). split; auto. eapply derives_node; eauto. Qed.
  Definition word_at (i : nat) : string * nat := (nth i (words st) EmptyString, i + 1).
  Lemma derives_yield s e t : derives s e t -> yield_ t = map word_at (seq s (e + 1 - s)).
  Proof.
    induction 1; cbn [yield_] in *; auto.
    - replace (i + 1 - i) with 1 by lia. cbn. unfold word_at. erewrite nth_error_nth; eauto.
    - apply derives_range in H. apply derives_range in H0. rewrite IHderives1, IHderives2, <- map_app. f_equal. replace (e + 1 - s) with ((m + 1 - s) + (e + 1 - (m + 1))) by lia. rewrite seq_app. f_equal. f_equal. lia.
  Qed.
  Lemma leftmost_yield (t : stree) : forall x l, yield_ t = x :: l -> leftmost t = fst x.
  Proof.
    induction t as [y w i sc|y c IH sc|y l IHl r IHr sc]; cbn [yield_ leftmost]; intros a z E.
    - injection E as <- _. reflexivity.
    - eauto.
    - destruct (yield_ l) as [|p q] eqn:El; [|cbn in E; injection E as -> _; eauto].
      exfalso. clear -El. induction l; cbn in El; try discriminate; auto. destruct (yield_ l1); [auto|discriminate].
  Qed.
  Lemma derives_leftmost s e t : derives s e t -> nth_error (words st) s = Some (leftmost t).
  Proof.
    intro D. assert (R := derives_range D). assert (Y := derives_yield D). replace (e + 1 - s) with (S (e - s)) in Y by lia. cbn [seq map] in Y. rewrite (leftmost_yield Y). cbn [fst word_at]. apply nth_error_nth'. lia.
  Qed.
  Lemma yield_all t : derives 0 (n - 1) t -> yield_ t = List.combine (words st) (seq 1 n).
  Proof.
    intro D. assert (R := derives_range D). rewrite (derives_yield D). replace (n - 1 + 1 - 0) with n by lia.
    assert (G : forall ws k, map (fun i => (nth i ws EmptyString, i + k)) (seq 0 (List.length ws)) = List.combine ws (seq k (List.length ws))).
    { induction ws as [|w ws IH]; intro k; cbn [List.length seq map List.combine nth]; auto. f_equal. rewrite <- (IH (S k)), <- seq_shift, map_map. apply map_ext. intro i. cbn [nth]. f_equal. lia. }
    apply G.
  Qed.
  (** ** the trees made in one step *)
  Lemma points_sp s e sp id : get_span st s e = Some sp -> span_score sp id = points s e id.
  Proof. intro E. unfold ChModel.span_score, ChSpec.points. rewrite E. reflexivity. Qed.
  Definition pre_base s e sp t := not_unary t /\ derives s e (calc sp t).
  Lemma unaries_in ts u : In u (unaries ts) <-> exists t, In t ts /\ (u = t \/ (exists x, In x (change (t_node t)) /\ u = TUn x t unset) \/ (exists x, In x (raise_ (t_node t)) /\ u = TUn x t unset) \/
    (exists y x, In y (change (t_node t)) /\ In x (raise_ y) /\ u = TUn x (TUn y t unset) unset)).
  Proof.
    assert (G : forall f (l : list stree) u, In u (List.concat (map (fun t => map (fun x => TUn x t unset) (f (t_node t))) l)) <-> exists t x, In t l /\ In x (f (t_node t)) /\ u = TUn x t unset).
    { intros f l v. rewrite in_concat. split.
      - intros (q & Hq & Hv). apply in_map_iff in Hq. destruct Hq as (t & <- & Ht). apply in_map_iff in Hv. destruct Hv as (x & <- & Hx). eauto.
      - intros (t & x & Ht & Hx & ->). exists (map (fun x => TUn x t unset) (f (t_node t))). split; apply in_map_iff; eauto. }
    unfold ChModel.unaries. cbv zeta. rewrite in_app_iff, in_app_iff, !G. split.
    - intros [[H|(t & x & H)]|(t & x & H & Hx & ->)]; [exists u; auto|destruct H as (A & B & D); exists t; split; auto; right; left; eauto|].
      apply in_app_or in H. destruct H as [H|H]; [exists t; split; auto; right; right; left; eauto|]. apply G in H. destruct H as (t' & y & Ht & Hy & ->). exists t'. split; auto. right. right. right. exists y, x. auto.
    - intros (t & Ht & [->|[(x & Hx & ->)|[(x & Hx & ->)|(y & x & Hy & Hx & ->)]]]).
      + left. now left.
      + left. right. eauto.
      + right. exists t, x. rewrite in_app_iff. auto.
      + right. exists (TUn y t unset), x. rewrite in_app_iff, G. split; [right; eauto|auto].
  Qed.
  Lemma calc_node sp t : t_node (calc sp t) = t_node t.
  Proof. destruct t; reflexivity. Qed.
  Lemma calc_cat sp t : t_cat (calc sp t) = t_cat t.
  Proof. unfold ChModel.t_cat. now rewrite calc_node. Qed.
  Lemma calc_unary sp t : not_unary t -> not_unary (calc sp t).
  Proof. destruct t; auto. Qed.
  Lemma calc_bare sp t : not_unary t -> bare (calc sp t) = base_score add t.
  Proof. destruct t; cbn; auto; contradiction. Qed.
  Lemma unaries_sound s e sp ts : get_span st s e = Some sp -> e - s + 1 < n -> (forall t, In t ts -> pre_base s e sp t) -> forall u, In u (unaries ts) -> derives s e (calc sp u).
  Proof.
    intros E L H u Hu. apply unaries_in in Hu. destruct Hu as (t & Ht & K). destruct (H t Ht) as [N D].
    assert (C1 : forall x, calc sp (TUn x t unset) = TUn x (calc sp t) (add (bare (calc sp t)) (points s e (rid "unary"%string [p_cat x; t_cat (calc sp t)])))).
    { intro x. cbn [ChModel.calc]. f_equal. rewrite (calc_bare sp N). rewrite calc_cat. unfold unary_score. destruct t; try contradiction; rewrite (points_sp _ E); reflexivity. }
    destruct K as [->|[(x & Hx & ->)|[(x & Hx & ->)|(y & x & Hy & Hx & ->)]]]; auto.
    - rewrite C1. apply dv_change; auto; [now apply calc_unary|now rewrite calc_node].
    - rewrite C1. apply dv_raise; auto; [now apply calc_unary|now rewrite calc_node].
    - assert (D1 : derives s e (calc sp (TUn y t unset))) by (rewrite C1; apply dv_change; auto; [now apply calc_unary|now rewrite calc_node]).
      assert (X : calc sp (TUn x (TUn y t unset) unset) = TUn x (calc sp (TUn y t unset)) (add (bare (calc sp t)) (points s e (rid "unary"%string [p_cat x; p_cat y; t_cat (calc sp t)])))).
      { cbn [ChModel.calc]. f_equal. rewrite (calc_bare sp N). rewrite calc_cat. unfold unary_score. rewrite (points_sp _ E). reflexivity. }
      rewrite X. rewrite C1 in D1 |- *. eapply dv_both; eauto; [now apply calc_unary|now rewrite calc_node].
  Qed.
  Lemma filter_root_in (ts : list stree) (t : stree) : In t (filter_root ts) <-> In t ts /\ root_ok roots t.
  Proof.
    unfold ChModel.filter_root, root_ok. destruct roots as [cs|]; [|tauto]. rewrite filter_In, existsb_exists. reflexivity.
  Qed.
  (** what one pair of trees gives *)
  Definition gen (s e : nat) (sp : list (nat * Sc)) (lt rt : stree) (xs : list ptree) : list stree :=
    let ts := map (fun x => TBin x lt rt unset) xs in
    let ts1 := if match ts with [] => false | _ => true end && (e - s + 1 <? n) then unaries ts else ts in
    map (calc sp) (if e - s =? n - 1 then filter_root ts1 else ts1).
  Definition rootp s e (t : stree) := e - s + 1 = n -> root_ok roots t.
  Lemma root_calc sp t : root_ok roots (calc sp t) <-> root_ok roots t.
  Proof. unfold root_ok, ChModel.t_cat. rewrite calc_node. reflexivity. Qed.
  Lemma binary_points s e sp x lt rt : get_span st s e = Some sp -> calc sp (TBin x lt rt unset) = TBin x lt rt (add (add (t_score lt) (t_score rt)) (points s e (binary_id x))).
  Proof. intro E. cbn [ChModel.calc]. unfold binary_score. rewrite (points_sp _ E). reflexivity. Qed.
  Lemma gen_sound s m e sp lt rt xs t : get_span st s e = Some sp -> derives s m lt -> derives (m + 1) e rt -> combine (t_node lt) (t_node rt) = Ok xs -> In t (gen s e sp lt rt xs) -> derives s e t /\ rootp s e t.
  Proof.
    intros E Dl Dr C I. unfold gen in I. cbv zeta in I. apply in_map_iff in I. destruct I as (u & <- & I).
    assert (P : forall v, In v (map (fun x => TBin x lt rt unset) xs) -> pre_base s e sp v).
    { intros v Hv. apply in_map_iff in Hv. destruct Hv as (x & <- & Hx). split; [exact Logic.I|]. rewrite (binary_points _ _ _ E). eapply dv_bin; eauto. }
    assert (R := derives_range Dl). assert (R2 := derives_range Dr). split.
    - assert (I' : In u (if match map (fun x => TBin x lt rt unset) xs with [] => false | _ => true end && (e - s + 1 <? n) then unaries (map (fun x => TBin x lt rt unset) xs) else map (fun x => TBin x lt rt unset) xs)).
      { destruct (e - s =? n - 1); auto. now apply filter_root_in in I. }
      destruct (_ && _) eqn:B; [|now apply P]. apply andb_prop in B. destruct B as [_ B]. apply Nat.ltb_lt in B. eapply unaries_sound; eauto.
    - intro Q. rewrite root_calc. replace (e - s =? n - 1) with true in I by (symmetry; apply Nat.eqb_eq; lia). now apply filter_root_in in I.
  Qed.
  (** scores of the trees made *)
  Lemma gen_score s e sp lt rt xs t : In t (gen s e sp lt rt xs) -> exists id, t_score t = add (add (t_score lt) (t_score rt)) (span_score sp id).
  Proof.
    unfold gen. cbv zeta. intro I. apply in_map_iff in I. destruct I as (u & <- & I).
    assert (I' : In u (map (fun x => TBin x lt rt unset) xs) \/ In u (unaries (map (fun x => TBin x lt rt unset) xs))).
    { destruct (e - s =? n - 1); [apply filter_root_in in I; destruct I as [I _]|]; destruct (_ && _); auto. }
    assert (G : In u (unaries (map (fun x => TBin x lt rt unset) xs))) by (destruct I' as [J|J]; auto; apply unaries_in; exists u; auto). clear I I'.
    apply unaries_in in G. destruct G as (t & Ht & K). apply in_map_iff in Ht. destruct Ht as (z & <- & _). destruct K as [->|[(x & Hx & ->)|[(x & Hx & ->)|(y & x & Hy & Hx & ->)]]]; cbn; eauto.
    unfold binary_score. eauto.
  Qed.
  Notation le a c := (ltb c a = false).
  Lemma fold_max l : forall m, le m (fold_left (fun m v => if ltb m v then v else m) l m) /\ Forall (fun v => le v (fold_left (fun m v => if ltb m v then v else m) l m)) l.
  Proof.
    induction l as [|v l IH]; intro m; cbn [fold_left]. { split; auto. apply (lt_irr (sn_order SN)). }
    destruct (IH (if ltb m v then v else m)) as [A B]. destruct (ltb m v) eqn:E.
    - split; [|constructor; auto]. eapply (le_tr (sn_order SN)); [|exact A]. now apply (lt_le (sn_order SN)).
    - split; auto. constructor; auto. eapply (le_tr (sn_order SN)); [|exact A]. exact E.
  Qed.
  Lemma max_ok sp id : le (span_score sp id) (max_of sp).
  Proof.
    unfold ChModel.max_of, ChModel.span_score. set (m0 := if ltb missing_cat missing_span then missing_span else missing_cat). destruct (fold_max (map snd sp) m0) as [A B].
    assert (M1 : le missing_cat m0 /\ le missing_span m0).
    { unfold m0. destruct (ltb missing_cat missing_span) eqn:E; split; try apply (lt_irr (sn_order SN)); auto. now apply (lt_le (sn_order SN)). }
    destruct M1 as [M1 M2]. destruct id as [i|]; [|now apply (le_tr (sn_order SN) M1)]. destruct (find _ sp) as [p|] eqn:F; [|now apply (le_tr (sn_order SN) M2)].
    apply find_some in F. destruct F as [F _]. rewrite Forall_forall in B. apply B. now apply in_map.
  Qed.
  (** ** the chart *)
  Definition chinv (ch : chart) (off : nat -> nat -> stree -> Prop) : Prop :=
    (forall s e c, get_cell ch s e = Some c -> cinv c (off s e) /\ trees c <> [] /\ forall t, In t (trees c) -> derives s e t /\ rootp s e t) /\
    (forall s e, get_cell ch s e = None -> forall t, ~ off s e t).
  Definition only_at (s e : nat) (ch ch' : chart) : Prop := forall s' e', (s', e') <> (s, e) -> get_cell ch' s' e' = get_cell ch s' e'.
  Lemma key_eqb_iff p q : key_eqb p q = true <-> p = q.
  Proof. unfold key_eqb. rewrite andb_true_iff, !Nat.eqb_eq. destruct p, q; cbn. split; [intros [-> ->]; auto|intro H; injection H; auto]. Qed.
  Lemma get_set (cs : list ((nat * nat) * cell stree cat Sc)) cnt s e c s' e' : get_cell (Chart (set_cell (s, e) c cs) cnt) s' e' = if key_eqb (s, e) (s', e') then Some c else get_cell (Chart cs cnt) s' e'.
  Proof.
    unfold get_cell. cbn [cells]. induction cs as [|[k d] cs IH]; cbn [set_cell find fst snd].
    - destruct (key_eqb (s, e) (s', e')); reflexivity.
    - destruct (key_eqb k (s, e)) eqn:E.
      + apply key_eqb_iff in E. subst k. cbn [find fst snd]. destruct (key_eqb (s, e) (s', e')); reflexivity.
      + cbn [find fst snd]. destruct (key_eqb k (s', e')) eqn:E2; [|exact IH]. apply key_eqb_iff in E2. subst k. destruct (key_eqb (s, e) (s', e')) eqn:E3; auto. apply key_eqb_iff in E3. rewrite E3 in E. assert (X : key_eqb (s', e') (s', e') = true) by now apply key_eqb_iff. congruence.
  Qed.
  Lemma get_cnt cs c1 c2 s e : get_cell (@Chart Sc cs c1) s e = get_cell (Chart cs c2) s e.
  Proof. reflexivity. Qed.
  Lemma g_refl a : good a -> eqc a a = true.
  Proof. intros (x & N & ->). now apply (sn_refl SN). Qed.
  Lemma g_sym a c : good a -> good c -> eqc a c = true -> eqc c a = true.
  Proof. intros (x & N & ->) (y & M & ->). now apply (sn_sym SN). Qed.
  Lemma g_trans a c d : good a -> good c -> good d -> eqc a c = true -> eqc c d = true -> eqc a d = true.
  Proof. intros (x & N & ->) (y & M & ->) (z & P & ->). now apply (sn_trans SN). Qed.
  Definition plus (off : nat -> nat -> stree -> Prop) s e (ts : stree -> Prop) : nat -> nat -> stree -> Prop := fun s' e' t => off s' e' t \/ ((s', e') = (s, e) /\ ts t).
  Lemma chart_add_ok ch off s e ts : chinv ch off -> (forall t, In t ts -> derives s e t /\ rootp s e t) -> exists ch', chart_add ch s e ts = Ok ch' /\ chinv ch' (plus off s e (fun t => In t ts)) /\ only_at s e ch ch'.
  Proof.
    intros [H1 H2] D. destruct ts as [|t0 ts0].
    { exists ch. split; auto. split; [|intros s' e' _; reflexivity]. split.
      - intros s' e' c E. destruct (H1 s' e' c E) as (A & B & F). split; auto. eapply cinv_ext; [|exact A]. intros u [Hu|[_ []]]. exact Hu.
      - intros s' e' E t [Ht|[_ []]]. now apply (H2 s' e' E t). }
    set (ts := t0 :: ts0) in *. unfold ChModel.chart_add. cbv zeta. fold ts.
    set (c0 := match get_cell ch s e with Some c => c | None => empty_cell ninf end).
    assert (I0 : cinv c0 (off s e) /\ forall t, In t (trees c0) -> derives s e t /\ rootp s e t).
    { unfold c0. destruct (get_cell ch s e) as [c|] eqn:E; [destruct (H1 s e c E) as (A & B & F); auto|].
      split; [|intros t []]. eapply cinv_ext; [|apply cinv_empty, (sn_beam SN)]. intros u Hu. now apply (H2 s e E u). }
    destruct I0 as [I0 D0].
    assert (GT : Forall (fun t => good (t_cat t)) ts). { apply Forall_forall. intros t Ht. destruct (D t Ht) as [Dt _]. eapply derives_good; eauto. }
    destruct (cell_add_ok (sn_order SN) g_refl g_sym g_trans (sn_same SN) (sn_same_cat SN) (sn_beam SN) I0 GT) as (c' & a' & Ea & I' & Mem & _).
    rewrite Ea. cbn [bind fst snd]. eexists. split; [reflexivity|].
    assert (Oth : forall s' e', get_cell (Chart (set_cell (s, e) c' (cells ch)) (count ch + a')%Z) s' e' = if key_eqb (s, e) (s', e') then Some c' else get_cell ch s' e').
    { intros s' e'. rewrite get_set. destruct ch as [cs cn]. cbn [cells]. reflexivity. }
    split.
    - split.
      + intros s' e' c E. rewrite Oth in E. destruct (key_eqb (s, e) (s', e')) eqn:K.
        * apply key_eqb_iff in K. injection K as <- <-. injection E as <-. split; [|split].
          { eapply cinv_ext; [|exact I']. intros u [Hu|[_ Hu]]; auto. }
          { destruct (ci_kept I' (t := t0)) as [_ K]; [left; now left|]. intro Q. rewrite Q in K. destruct K as [[]|[(u & [] & _)|[K _]]]. cbn in K. pose proof (sn_beam SN). lia. }
          { intros t Ht. apply Mem in Ht. destruct Ht; auto. }
        * destruct (H1 s' e' c E) as (A & B & F). split; auto. eapply cinv_ext; [|exact A]. intros u [Hu|[Q _]]; auto. apply key_eqb_iff in Q. assert (X : key_eqb (s, e) (s', e') = true) by (apply key_eqb_iff; apply key_eqb_iff in Q; congruence). congruence.
      + intros s' e' E t [Ht|[Q Ht]]; rewrite Oth in E.
        * destruct (key_eqb (s, e) (s', e')); [discriminate|]. now apply (H2 s' e' E t).
        * replace (key_eqb (s, e) (s', e')) with true in E by (symmetry; apply key_eqb_iff; congruence). discriminate.
    - intros s' e' Ne. rewrite Oth. destruct (key_eqb (s, e) (s', e')) eqn:K; auto. apply key_eqb_iff in K. congruence.
  Qed.
  (** ** pruning *)
  Lemma prune_ok ch off s e (P : stree -> Prop) : chinv ch off -> (forall t, P t -> derives s e t /\ ltb (t_score t) (min_score ninf ch s e) = true) -> chinv ch (plus off s e P).
  Proof.
    intros [H1 H2] HP. split.
    - intros s' e' c E. destruct (H1 s' e' c E) as (A & B & F). split; auto. destruct A as [A1 A2 A3 A4 A5 A6 A7]. constructor; auto.
      intros t [Ht|[Q Ht]]; auto. injection Q as -> ->. destruct (HP t Ht) as [D L]. split; [eapply derives_good; eauto|]. unfold min_score in L. rewrite E in L.
      destruct A6 as [[_ M]|(u & Eu & M)]; rewrite M in L; [rewrite (sn_ninf SN) in L; discriminate|].
      right. right. split. { assert (X : b - 1 < List.length (trees c)) by (apply nth_error_Some; congruence). pose proof (sn_beam SN). lia. }
      intros v Hv. eapply (lt_le_tr (sn_order SN)); [exact L|]. apply (beam_all (sn_order SN) (sn_beam SN) A2 A5 Eu Hv).
    - intros s' e' E t [Ht|[Q Ht]]; [now apply (H2 s' e' E t)|]. injection Q as -> ->. destruct (HP t Ht) as [_ L]. unfold min_score in L. rewrite E, (sn_ninf SN) in L. discriminate.
  Qed.
  (** ** errors come from the grammar *)
  Definition grammar_error (x : exn) : Prop := (exists l r, combine l r = Err x) \/ (exists c w i, lexical c w i = Err x).
  Definition post (r : res chart) (Q : chart -> Prop) : Prop := match r with Ok ch => Q ch | Err x => grammar_error x end.
  Lemma post_bind r f (Q Q' : chart -> Prop) : post r Q -> (forall ch, Q ch -> post (f ch) Q') -> post (bind r f) Q'.
  Proof. destruct r; cbn; auto. Qed.
  Lemma post_weak r (Q Q' : chart -> Prop) : post r Q -> (forall ch, Q ch -> Q' ch) -> post r Q'.
  Proof. destruct r; cbn; auto. Qed.
  Definition extends (off off' : nat -> nat -> stree -> Prop) : Prop := forall s e t, off s e t -> off' s e t.
  Definition step (s e : nat) (ch : chart) (off : nat -> nat -> stree -> Prop) (P : stree -> Prop) (ch' : chart) : Prop :=
    exists off', chinv ch' off' /\ extends off off' /\ only_at s e ch ch' /\ forall t, P t -> off' s e t.
  Lemma only_trans s e c1 c2 c3 : only_at s e c1 c2 -> only_at s e c2 c3 -> only_at s e c1 c3.
  Proof. intros A B s' e' N. rewrite (B s' e' N). now apply A. Qed.
  Lemma step_trans s e ch off P ch1 P' : step s e ch off P ch1 -> forall Q, (forall off1, chinv ch1 off1 -> post Q (step s e ch1 off1 P')) -> post Q (step s e ch off (fun t => P t \/ P' t)).
  Proof.
    intros (off1 & I1 & X1 & O1 & C1) Q H. eapply post_weak; [apply (H off1 I1)|]. intros ch2 (off2 & I2 & X2 & O2 & C2). exists off2. split; auto. split; [intros a c t Ht; apply X2, X1, Ht|].
    split; [eapply only_trans; eauto|]. intros t [Ht|Ht]; auto.
  Qed.
  Definition made s e sp lt rt t := exists xs, combine (t_node lt) (t_node rt) = Ok xs /\ In t (gen s e sp lt rt xs).
  Lemma rights_ok s m e sp lt : get_span st s e = Some sp -> derives s m lt -> forall rs, dsc t_score ltb rs -> (forall r, In r rs -> derives (m + 1) e r) -> forall ch off, chinv ch off ->
    post (rights s e sp lt rs ch) (step s e ch off (fun t => exists rt, In rt rs /\ made s e sp lt rt t)).
  Proof.
    intros E Dl. induction rs as [|rt rs IH]; intros Ds Dr ch off I; cbn [ChModel.rights].
    { exists off. split; auto. split; [intros a c t; auto|]. split; [intros s' e' _; reflexivity|]. intros t (r & [] & _). }
    destruct (ltb (add (add (t_score lt) (t_score rt)) (max_of sp)) (min_score ninf ch s e)) eqn:Pr.
    - exists (plus off s e (fun t => exists r, In r (rt :: rs) /\ made s e sp lt r t)). split; [|split; [intros a c t Ht; now left|split; [intros s' e' _; reflexivity|intros t Ht; right; auto]]].
      apply prune_ok; auto. intros t (r & Hr & xs & Ec & It). destruct (gen_sound E Dl (Dr r Hr) Ec It) as [Dt _]. split; auto.
      destruct (gen_score It) as (id & ->). eapply (le_lt_tr (sn_order SN)); [|exact Pr].
      eapply (le_tr (sn_order SN)); [apply (sa_right (sn_add SN)), max_ok|]. apply (sa_left (sn_add SN)), (sa_right (sn_add SN)).
      destruct Hr as [<-|Hr]; [apply (lt_irr (sn_order SN))|]. destruct Ds as [F _]. rewrite Forall_forall in F. apply (F r Hr).
    - destruct (combine (t_node lt) (t_node rt)) as [xs|x] eqn:Ec; cbn [bind]; [|left; eauto].
      change (map (calc sp) _) with (gen s e sp lt rt xs). destruct (@chart_add_ok ch off s e (gen s e sp lt rt xs) I) as (ch1 & E1 & I1 & O1).
      { intros t Ht. eapply gen_sound; eauto. apply Dr. now left. }
      rewrite E1. cbn [bind]. destruct Ds as [_ Ds]. eapply post_weak; [apply (IH Ds (fun r Hr => Dr r (or_intror Hr)) ch1 _ I1)|]. intros ch2 (off2 & I2 & X2 & O2 & C2). exists off2. split; auto.
      split; [intros a c t Ht; apply X2; now left|]. split; [eapply only_trans; eauto|]. intros t (r & [<-|Hr] & xs' & Ec' & It); [|apply C2; exists r; split; auto; exists xs'; auto].
      rewrite Ec in Ec'. injection Ec' as <-. apply X2. right. auto.
  Qed.
  Lemma lefts_ok s m e sp rs : get_span st s e = Some sp -> dsc t_score ltb rs -> (forall r, In r rs -> derives (m + 1) e r) -> forall ls, (forall l, In l ls -> derives s m l) -> forall ch off, chinv ch off ->
    post (foldM (fun ch lt => rights s e sp lt rs ch) ls ch) (step s e ch off (fun t => exists lt rt, In lt ls /\ In rt rs /\ made s e sp lt rt t)).
  Proof.
    intros E Ds Dr. induction ls as [|l ls IH]; intros Dl ch off I; cbn [foldM].
    { exists off. split; auto. split; [intros a c t; auto|]. split; [intros s' e' _; reflexivity|]. intros t (x & y & [] & _). }
    eapply post_bind; [apply (rights_ok E (Dl l (or_introl (Logic.eq_refl _))) Ds Dr I)|]. intros ch1 St. eapply post_weak; [apply (step_trans St (P' := fun t => exists lt rt, In lt ls /\ In rt rs /\ made s e sp lt rt t))|].
    - intros off1 I1. apply IH; auto. intros x Hx. apply Dl. now right.
    - intros ch2 (off2 & I2 & X2 & O2 & C2). exists off2. split; auto. split; auto. split; auto. intros t (lt & rt & [<-|Hl] & Hr & Mt); apply C2; [left|right]; eauto.
  Qed.
  (** trees of a cell *)
  Definition at_ (ch : chart) (s e : nat) : list stree := match get_cell ch s e with Some c => trees c | None => [] end.
  Lemma at_derives ch off s e t : chinv ch off -> In t (at_ ch s e) -> derives s e t /\ rootp s e t.
  Proof. intros [H1 _] I. unfold at_ in I. destruct (get_cell ch s e) as [c|] eqn:E; [|destruct I]. destruct (H1 s e c E) as (_ & _ & F). auto. Qed.
  Definition from_split ch s e sp m t := exists lt rt, In lt (at_ ch s m) /\ In rt (at_ ch (m + 1) e) /\ made s e sp lt rt t.
  Lemma split_ok s e sp ch off m : get_span st s e = Some sp -> chinv ch off -> post (split_at s e sp ch (m + 1)) (step s e ch off (from_split ch s e sp m)).
  Proof.
    intros E I. unfold ChModel.split_at, from_split, at_. replace (m + 1 - 1) with m by lia. destruct (get_cell ch s m) as [cl|] eqn:El; [destruct (get_cell ch (m + 1) e) as [cr|] eqn:Er|].
    - destruct I as [H1 H2]. destruct (H1 _ _ _ El) as (Il & _ & Dl). destruct (H1 _ _ _ Er) as (Ir & _ & Dr). apply lefts_ok with (m := m); auto; [apply (ci_dsc Ir)| | |split; auto]; intros x Hx; [apply (Dr x Hx)|apply (Dl x Hx)].
    - exists off. split; auto. split; [intros a c t; auto|]. split; [intros s' e' _; reflexivity|]. intros t (x & y & _ & [] & _).
    - exists off. split; auto. split; [intros a c t; auto|]. split; [intros s' e' _; reflexivity|]. intros t (x & y & [] & _).
  Qed.
  Lemma splits_ok s e sp : get_span st s e = Some sp -> forall ms, (forall m, In m ms -> s <= m < e) -> forall ch0 ch off, only_at s e ch0 ch -> chinv ch off ->
    post (foldM (fun ch m => split_at s e sp ch m) (map (fun m => m + 1) ms) ch) (step s e ch off (fun t => exists m, In m ms /\ from_split ch0 s e sp m t)).
  Proof.
    intros E. induction ms as [|m ms IH]; intros R ch0 ch off O I; cbn [map foldM].
    { exists off. split; auto. split; [intros a c t; auto|]. split; [intros s' e' _; reflexivity|]. intros t (x & [] & _). }
    eapply post_bind; [apply (split_ok m E I)|]. intros ch1 St. eapply post_weak; [apply (step_trans St (P' := fun t => exists m, In m ms /\ from_split ch0 s e sp m t))|].
    - intros off1 I1. apply IH; auto. { intros x Hx. apply R. now right. } destruct St as (off' & _ & _ & O' & _). eapply only_trans; eauto.
    - intros ch2 (off2 & I2 & X2 & O2 & C2). exists off2. split; auto. split; auto. split; auto. intros t (m' & [<-|Hm] & F); apply C2; [left|right; eauto].
      assert (Rm := R m (or_introl (Logic.eq_refl _))). destruct F as (lt & rt & A & B & M). exists lt, rt. unfold at_ in *. rewrite O by (intro Q; injection Q; lia). rewrite (O (m + 1) e) by (intro Q; injection Q; lia). auto.
  Qed.
  Lemma one_span_ok s e ch off : s <= e -> chinv ch off -> post (one_span ch s e) (step s e ch off (fun t => exists sp m, get_span st s e = Some sp /\ s <= m < e /\ from_split ch s e sp m t)).
  Proof.
    intros L I. unfold ChModel.one_span. destruct (get_span st s e) as [sp|] eqn:E.
    - replace (seq (s + 1) (e - s)) with (map (fun m => m + 1) (seq s (e - s))).
      + eapply post_weak; [apply (@splits_ok s e sp E (seq s (e - s)) ltac:(intros m Hm; apply in_seq in Hm; lia) ch ch off (fun _ _ _ => Logic.eq_refl _) I)|].
        intros ch2 (off2 & I2 & X2 & O2 & C2). exists off2. split; auto. split; auto. split; auto. intros t (sp' & m & Q & Rm & F). injection Q as <-. apply C2. exists m. split; auto. apply in_seq. lia.
      + generalize s at 1 3. generalize (e - s) as k. clear. induction k as [|k IH]; intro s; cbn [seq map]; auto. f_equal. apply IH.
    - exists off. split; auto. split; [intros a c t; auto|]. split; [intros s' e' _; reflexivity|]. intros t (sp & m & Q & _). discriminate.
  Qed.
  (** ** every candidate is made *)
  Lemma derives_core s e t : derives s e t -> derives s e (core t) /\ not_unary (core t).
  Proof. induction 1; cbn [core] in *; auto; split; try exact Logic.I; [eapply dv_leaf; eauto|eapply dv_bin; eauto]. Qed.
  Lemma derives_un s e y t sc : derives s e (TUn y t sc) -> not_unary t -> sc = add (bare t) (points s e (rid "unary"%string [p_cat y; t_cat t])).
  Proof. intros D Nt. inversion D; subst; auto. contradiction. Qed.
  Lemma unaries_complete s e sp ts u : get_span st s e = Some sp -> derives s e u -> (exists p, In p ts /\ not_unary p /\ calc sp p = core u) -> exists v, In v (unaries ts) /\ calc sp v = u.
  Proof.
    intros E D (p & Hp & Np & Cp).
    assert (C1 : forall x, calc sp (TUn x p unset) = TUn x (calc sp p) (add (bare (calc sp p)) (points s e (rid "unary"%string [p_cat x; t_cat (calc sp p)])))).
    { intro x. cbn [ChModel.calc]. f_equal. rewrite (calc_bare sp Np). rewrite calc_cat. unfold unary_score. destruct p; try contradiction; rewrite (points_sp _ E); reflexivity. }
    assert (NN : forall t : stree, not_unary t -> core t = t) by (intros t Nt; destruct t; auto; contradiction).
    assert (Nd : t_node (core u) = t_node p) by (rewrite <- Cp; apply calc_node).
    inversion D; subst; cbn [core] in Cp, Nd; try rewrite NN in Cp, Nd by assumption.
    - exists p. split; auto. apply unaries_in. exists p. auto.
    - exists p. split; auto. apply unaries_in. exists p. auto.
    - exists (TUn x p unset). split; [apply unaries_in; exists p; split; auto; right; left; exists x; rewrite <- Nd; auto|]. rewrite C1, Cp. reflexivity.
    - exists (TUn x p unset). split; [apply unaries_in; exists p; split; auto; right; right; left; exists x; rewrite <- Nd; auto|]. rewrite C1, Cp. reflexivity.
    - exists (TUn x (TUn y p unset) unset). split; [apply unaries_in; exists p; split; auto; right; right; right; exists y, x; rewrite <- Nd; auto|].
      assert (X : calc sp (TUn x (TUn y p unset) unset) = TUn x (calc sp (TUn y p unset)) (add (bare (calc sp p)) (points s e (rid "unary"%string [p_cat x; p_cat y; t_cat (calc sp p)])))).
      { cbn [ChModel.calc]. f_equal. rewrite (calc_bare sp Np). rewrite calc_cat. unfold unary_score. rewrite (points_sp _ E). reflexivity. }
      rewrite X, C1, Cp. f_equal. f_equal.
      symmetry. apply derives_un; auto.
  Qed.
  Lemma gen_complete s e sp t x l r sc : get_span st s e = Some sp -> derives s e t -> rootp s e t -> core t = TBin x l r sc -> exists xs, combine (t_node l) (t_node r) = Ok xs /\ In t (gen s e sp l r xs).
  Proof.
    intros E D R C. destruct (derives_core D) as [Dc _]. rewrite C in Dc. inversion Dc; subst. match goal with H : combine _ _ = Ok xs |- _ => rename H into Hc end. exists xs. split; auto.
    assert (Rg := derives_range D). unfold gen. cbv zeta.
    assert (P : exists p, In p (map (fun x => TBin x l r unset) xs) /\ not_unary p /\ calc sp p = core t).
    { exists (TBin x l r unset). split; [apply in_map_iff; eauto|]. split; [exact Logic.I|]. rewrite C. apply (binary_points _ _ _ E). }
    assert (Q : exists v, In v (if match map (fun x => TBin x l r unset) xs with [] => false | _ => true end && (e - s + 1 <? n) then unaries (map (fun x => TBin x l r unset) xs) else map (fun x => TBin x l r unset) xs) /\ calc sp v = t).
    { replace (match map (fun x => TBin x l r unset) xs with [] => false | _ => true end) with true by (destruct xs; [contradiction|reflexivity]). cbn [andb]. destruct (Nat.ltb_spec (e - s + 1) n) as [L|L].
      - eapply unaries_complete; eauto.
      - destruct P as (p & Hp & _ & Cp). exists p. split; auto. rewrite Cp. destruct t; cbn [core] in *; auto. inversion D; subst; try lia. match goal with H : derives _ _ (TUn _ _ _) |- _ => inversion H; subst; try lia; contradiction end. }
    destruct Q as (v & Hv & <-). apply in_map. destruct (Nat.eqb_spec (e - s) (n - 1)) as [Q|Q]; auto. apply filter_root_in. split; auto. apply (root_calc sp). apply R. lia.
  Qed.
  Notation candidate ch := (candidate derives st roots (at_ ch)).
  Lemma cand_long ch off s e t : chinv ch off -> s < e -> candidate ch s e t -> exists sp m, get_span st s e = Some sp /\ s <= m < e /\ from_split ch s e sp m t.
  Proof.
    intros I L (D & R & C & G). destruct (derives_core D) as [Dc Nc]. destruct (core t) as [x w i sc|x c sc|x l r sc] eqn:Ec; [inversion Dc; subst; lia|contradiction|].
    destruct C as (m & Hl & Hr). assert (Rl := derives_range (proj1 (at_derives I Hl))). assert (Rr := derives_range (proj1 (at_derives I Hr))).
    destruct (get_span st s e) as [sp|] eqn:E.
    - destruct (gen_complete E D R Ec) as (xs & Hc & Hg). exists sp, m. split; auto. split; [lia|]. exists l, r. split; auto. split; auto. exists xs. auto.
    - exfalso. destruct t; try (now apply G). cbn [core] in Ec. discriminate.
  Qed.
  (** ** the lexicon *)
  Lemma mapM_in A B (f : A -> res B) l ys y : mapM f l = Ok ys -> (In y ys <-> exists x, In x l /\ f x = Ok y).
  Proof.
    revert ys. induction l as [|a l IH]; intros ys E; cbn [mapM] in E.
    - injection E as <-. split; [intros []|intros (x & [] & _)].
    - destruct (f a) as [z|] eqn:F; [|discriminate]. destruct (mapM f l) as [zs|]; [|discriminate]. cbn in E. injection E as <-. cbn [In]. rewrite (IH zs (Logic.eq_refl _)). split.
      + intros [<-|(x & Hx & Ex)]; eauto.
      + intros (x & [<-|Hx] & Ex); [left; congruence|right; eauto].
  Qed.
  Lemma mapM_fail A B (f : A -> res B) l x : mapM f l = Err x -> exists a, In a l /\ f a = Err x.
  Proof.
    induction l as [|a l IH]; cbn [mapM]; [discriminate|]. destruct (f a) as [z|z] eqn:F; [|intro Q; cbn in Q; injection Q as ->; exists a; cbn; auto].
    destruct (mapM f l) as [zs|z']; cbn; intro Q; [discriminate|]. injection Q as ->. destruct IH as (a' & H & H'); auto. exists a'. cbn. auto.
  Qed.
  Definition at_word i (t : stree) := derives i i t /\ rootp i i t /\ match t with TLeaf _ _ _ _ => True | _ => get_span st i i <> None end.
  Lemma lex_word_ok i w tg ch off : nth_error (words st) i = Some w -> nth_error (tags st) i = Some tg -> chinv ch off -> post (lex_word ch i w tg) (step i i ch off (at_word i)).
  Proof.
    intros Ew Et I. unfold ChModel.lex_word. destruct (mapM _ tg) as [ls|x] eqn:El; cbn [bind].
    2:{ right. apply mapM_fail in El. destruct El as (p & Hp & F). destruct (lexical (fst p) w (i + 1)) as [y|y] eqn:Ex; cbn in F; [discriminate|]. injection F as ->. eauto. }
    assert (In_n : i < n) by (apply nth_error_Some; congruence).
    assert (Hl : forall t, In t ls <-> exists c p x, In (c, p) tg /\ lexical c w (i + 1) = Ok x /\ t = TLeaf x w (i + 1) (weigh p)).
    { intro t. rewrite (mapM_in t El). split.
      - intros ([c p] & Hp & F). cbn [fst snd] in F. destruct (lexical c w (i + 1)) as [x|] eqn:Ex; [|discriminate]. cbn in F. injection F as <-. exists c, p, x. auto.
      - intros (c & p & x & Hp & Ex & ->). exists (c, p). split; auto. cbn [fst snd]. rewrite Ex. reflexivity. }
    assert (Leaf : forall t, In t ls -> derives i i t /\ not_unary t). { intros t Ht. apply Hl in Ht. destruct Ht as (c & p & x & Hp & Ex & ->). split; [|exact Logic.I]. eapply dv_leaf; eauto. }
    assert (Leaf' : forall t, derives i i t -> not_unary t -> In t ls).
    { intros t D Nt. inversion D; subst; try contradiction.
      - apply Hl. assert (tg0 = tg) by congruence. assert (w0 = w) by congruence. subst. eauto 10.
      - match goal with H1 : derives i m l, H2 : derives (m + 1) i r |- _ => apply derives_range in H1; apply derives_range in H2 end. lia. }
    set (rs := match get_span st i i with None => ls | Some sp => if 1 <? n then map (calc sp) (unaries ls) else ls end).
    assert (S1 : forall t, In t rs -> derives i i t).
    { intros t Ht. unfold rs in Ht. destruct (get_span st i i) as [sp|] eqn:E; [|now apply Leaf]. destruct (Nat.ltb_spec 1 n) as [L|L]; [|now apply Leaf]. apply in_map_iff in Ht. destruct Ht as (u & <- & Hu).
      eapply (unaries_sound E); [lia| |exact Hu]. intros v Hv. destruct (Leaf v Hv) as [A B]. split; auto. destruct v; auto; try contradiction. inversion A; subst. match goal with H1 : derives i m _, H2 : derives (m + 1) i _ |- _ => apply derives_range in H1; apply derives_range in H2 end. lia. }
    assert (S2 : forall t, derives i i t -> match t with TLeaf _ _ _ _ => True | _ => get_span st i i <> None end -> In t rs).
    { intros t D G. unfold rs. destruct (derives_core D) as [Dc Nc]. destruct (get_span st i i) as [sp|] eqn:E.
      - destruct (Nat.ltb_spec 1 n) as [L|L].
        + destruct (@unaries_complete i i sp ls t E D) as (v & Hv & <-); [|now apply in_map]. exists (core t). split; [now apply Leaf'|]. split; auto. assert (X := Leaf' _ Dc Nc). apply Hl in X. destruct X as (c & p & x & _ & _ & ->). reflexivity.
        + apply Leaf'; auto. destruct t; try exact Logic.I. inversion D; subst; try lia. match goal with H : derives _ _ (TUn _ _ _) |- _ => inversion H; subst; try lia; contradiction end.
      - apply Leaf'; auto. destruct t; try exact Logic.I. now apply G. }
    destruct (@chart_add_ok ch off i i (if n =? 1 then filter_root rs else rs) I) as (ch1 & E1 & I1 & O1).
    { intros t Ht. destruct (Nat.eqb_spec n 1) as [Q|Q].
      - apply filter_root_in in Ht. destruct Ht as [Ht Rt]. split; auto. intro; exact Rt.
      - split; auto. intro Q'. exfalso. lia. }
    cbv zeta. fold rs. rewrite E1. cbn [post]. exists (plus off i i (fun t => In t (if n =? 1 then filter_root rs else rs))). split; auto. split; [intros a c t Ht; now left|]. split; auto.
    intros t (D & R & G). right. split; auto. destruct (Nat.eqb_spec n 1) as [Q|Q]; auto. apply filter_root_in. split; auto. apply R. lia.
  Qed.
  Lemma skipn_cons A (l : list A) i x l' : skipn i l = x :: l' -> nth_error l i = Some x /\ skipn (i + 1) l = l'.
  Proof. revert l. induction i as [|i IH]; intros [|y l] E; cbn [skipn] in E; try discriminate; [injection E as -> ->; split; auto|]. apply IH in E. exact E. Qed.
  Lemma skipn_nil_nth A (l : list A) i j : skipn i l = [] -> i <= j -> nth_error l j = None.
  Proof. intros E L. apply nth_error_None. assert (X := f_equal (@List.length A) E). rewrite skipn_length in X. cbn in X. lia. Qed.
  Lemma lex_all_ok : forall k i ch off, n - i <= k -> chinv ch off -> post (lex_all ch i (skipn i (words st)) (skipn i (tags st))) (fun ch' => exists off', chinv ch' off' /\ extends off off' /\ forall j t, i <= j -> at_word j t -> off' j j t).
  Proof.
    assert (Z : forall i ch off, chinv ch off -> skipn i (words st) = [] \/ skipn i (tags st) = [] -> exists off', chinv ch off' /\ extends off off' /\ forall j t, i <= j -> at_word j t -> off' j j t).
    { intros i ch off I H. exists off. split; auto. split; [intros a c t; auto|]. intros j t L (D & _). exfalso. apply derives_core in D. destruct D as [D Nu]. destruct (core t) as [x w q sc|x c sc|x l r sc]; [|contradiction|].
      - inversion D; subst. destruct H as [H|H]; eapply skipn_nil_nth in H; eauto; congruence.
      - inversion D; subst. match goal with H1 : derives j m _, H2 : derives (m + 1) j _ |- _ => apply derives_range in H1; apply derives_range in H2 end. lia. }
    induction k as [|k IH]; intros i ch off L I.
    - assert (W : skipn i (words st) = []) by (apply skipn_all2; lia). rewrite W. cbn [ChModel.lex_all post]. apply Z; auto.
    - destruct (skipn i (words st)) as [|w ws] eqn:Ew; [cbn [ChModel.lex_all post]; apply Z; auto|]. destruct (skipn i (tags st)) as [|tg tgs] eqn:Et; [cbn [ChModel.lex_all post]; apply Z; auto|].
      cbn [ChModel.lex_all]. apply skipn_cons in Ew. apply skipn_cons in Et. destruct Ew as [Ew1 <-], Et as [Et1 <-].
      eapply post_bind; [apply (lex_word_ok Ew1 Et1 I)|]. intros ch1 (off1 & I1 & X1 & _ & C1). eapply post_weak; [apply (IH (i + 1) ch1 off1 ltac:(lia) I1)|].
      intros ch2 (off2 & I2 & X2 & C2). exists off2. split; auto. split; [intros a c t Ht; apply X2, X1, Ht|]. intros j t Lj W. destruct (Nat.eq_dec i j) as [<-|Ne]; [apply X2, C1, W|apply C2; auto; lia].
  Qed.
  (** ** longer spans *)
  Definition same_below (k : nat) (ch ch' : chart) : Prop := forall s e, e - s < k -> get_cell ch' s e = get_cell ch s e.
  Lemma same_below_cand k ch ch' s e t : same_below k ch ch' -> e - s <= k -> (forall l s m, In l (at_ ch' s m) -> s <= m) -> candidate ch' s e t -> candidate ch s e t.
  Proof.
    intros B L Or (D & R & C & G). split; auto. split; auto. split; auto. destruct (core t); auto. destruct C as (m & Hl & Hr). exists m.
    assert (A1 := Or _ _ _ Hl). assert (A2 := Or _ _ _ Hr). unfold at_ in *. rewrite <- (B s m), <- (B (m + 1) e) by lia. auto.
  Qed.
  Lemma at_order ch off l s m : chinv ch off -> In l (at_ ch s m) -> s <= m.
  Proof. intros I H. apply (at_derives I) in H. destruct H as [H _]. apply derives_range in H. lia. Qed.
  Lemma ends_ok len : 1 <= len -> forall es ch0 ch off, (forall l s m, In l (at_ ch0 s m) -> s <= m) -> (forall e, In e es -> len <= e) -> same_below len ch0 ch -> chinv ch off ->
    post (ends len es ch) (fun ch' => exists off', chinv ch' off' /\ extends off off' /\ same_below len ch0 ch' /\ (max_trees = None -> forall e t, In e es -> candidate ch0 (e - len) e t -> off' (e - len) e t)).
  Proof.
    intro L1. induction es as [|e es IH]; intros ch0 ch off Or Le B I; cbn [ChModel.ends].
    { exists off. split; auto. split; [intros a c t; auto|]. split; auto. intros _ e t []. }
    destruct (match max_trees with Some m => (m <? count ch)%Z | None => false end) eqn:St.
    { exists off. split; auto. split; [intros a c t; auto|]. split; auto. intro Q. rewrite Q in St. discriminate. }
    assert (Lee := Le e (or_introl (Logic.eq_refl _))).
    eapply post_bind; [apply (@one_span_ok (e - len) e ch off ltac:(lia) I)|]. intros ch1 (off1 & I1 & X1 & O1 & C1).
    eapply post_weak; [apply (IH ch0 ch1 off1 Or (fun x Hx => Le x (or_intror Hx)))|]; auto.
    { intros s' e' Q. rewrite O1; [now apply B|]. intro Q'. injection Q' as -> ->. lia. }
    intros ch2 (off2 & I2 & X2 & B2 & C2). exists off2. split; auto. split; [intros a c t Ht; apply X2, X1, Ht|]. split; auto. intros M e' t [<-|He] Ct; [|now apply C2].
    apply X2, C1. apply (cand_long I); [lia|]. eapply same_below_cand; [| | |exact Ct]. { intros s' e' Q. symmetry. apply B. exact Q. } { lia. } exact Or.
  Qed.
  Lemma rounds_ok : forall (j k : nat) (ch : chart) (off : nat -> nat -> stree -> Prop), (max_trees = None -> forall s e t, e - s <= k -> candidate ch s e t -> off s e t) -> chinv ch off ->
    post (foldM (fun ch len => ends len (seq len (n - len)) ch) (seq (k + 1) j) ch) (fun ch' => exists off', chinv ch' off' /\ extends off off' /\ same_below (k + 1) ch ch' /\ (max_trees = None -> forall s e t, e - s <= k + j -> candidate ch' s e t -> off' s e t)).
  Proof.
    induction j as [|j IH]; intros k ch off C I; cbn [seq foldM].
    { exists off. split; auto. split; [intros a c t; auto|]. split; [intros s e _; reflexivity|]. intros M s e t L. apply C; auto. lia. }
    eapply post_bind.
    { apply (@ends_ok (k + 1) ltac:(lia) (seq (k + 1) (n - (k + 1))) ch ch off (fun l s m H => at_order I H)); auto. { intros e He. apply in_seq in He. lia. } intros s e _. reflexivity. }
    intros ch1 (off1 & I1 & X1 & B1 & C1). replace (S (k + 1)) with ((k + 1) + 1) by lia. eapply post_weak; [apply (IH (k + 1) ch1 off1); auto|].
    - intros M s e t L Ct. apply (same_below_cand B1 L (fun l s m H => at_order I1 H)) in Ct. destruct (Nat.eq_dec (e - s) (k + 1)) as [Q|Q].
      + assert (R := derives_range (proj1 Ct)). replace s with (e - (k + 1)) in * by lia. apply C1; auto. apply in_seq. lia.
      + apply X1. apply C; auto. lia.
    - intros ch2 (off2 & I2 & X2 & B2 & C2). exists off2. split; auto. split; [intros a c t Ht; apply X2, X1, Ht|]. split; [intros s e L; rewrite B2, B1 by lia; reflexivity|]. intros M s e t L. apply C2; auto. lia.
  Qed.
  Notation parse_chart := (parse_chart ltb add ninf eqc is_same lexical combine change raise_ roots rid missing_cat missing_span unset weigh b max_trees).
  Notation parse := (parse ltb add ninf eqc is_same lexical combine change raise_ roots rid missing_cat missing_span unset weigh b max_trees).
  Lemma empty_ok : chinv (Chart [] 0%Z) (fun _ _ _ => False).
  Proof. split; [intros s e c E; discriminate|intros s e _ t []]. Qed.
  Lemma parse_chart_ok : post (parse_chart st) (fun ch => exists off, chinv ch off /\ (forall j t, at_word j t -> off j j t) /\ (max_trees = None -> forall s e t, candidate ch s e t -> off s e t)).
  Proof.
    unfold ChModel.parse_chart. cbv zeta. eapply post_bind; [apply (@lex_all_ok n 0 _ _ ltac:(lia) empty_ok)|]. intros ch1 (off1 & I1 & X1 & C1).
    eapply post_weak; [apply (@rounds_ok (n - 1) 0 ch1 off1); auto|].
    - intros M s e t L (D & R & C & G). assert (Rg := derives_range D). assert (s = e) by lia. subst e. apply C1; [lia|]. split; auto.
    - intros ch2 (off2 & I2 & X2 & B2 & C2). exists off2. split; auto. split; [intros j t W; apply X2, C1; auto; lia|]. intros M s e t Ct. apply C2; auto. assert (Rg := derives_range (proj1 Ct)). lia.
  Qed.
  (** ** the result *)
  Lemma read_words_ok ch off : chinv ch off -> forall fuel k, k <= n -> exists j, read_words fuel ch k = Ok (firstn j (skipn k (words st))) /\ k + j <= n /\ (forall i, i < j -> get_cell ch (k + i) (k + i) <> None) /\ (j = fuel \/ get_cell ch (k + j) (k + j) = None).
  Proof.
    intro I. induction fuel as [|f IH]; intros k L; cbn [read_words]. { exists 0. repeat split; auto; [lia|intros i Hi; lia]. }
    destruct (get_cell ch k k) as [c|] eqn:E; [|exists 0; repeat split; auto; [lia|intros i Hi; lia|right; now rewrite Nat.add_0_r]].
    destruct I as [H1 H2]. destruct (H1 k k c E) as (A & B & F). destruct (trees c) as [|t ts] eqn:Et; [contradiction|]. destruct (F t (or_introl (Logic.eq_refl _))) as [D _].
    assert (R := derives_range D). destruct (IH (k + 1) ltac:(lia)) as (j & Ej & Lj & Pj & Sj). exists (S j). rewrite Ej. cbn [rmap].
    assert (W := derives_leftmost D). assert (Sk : skipn k (words st) = leftmost t :: skipn (k + 1) (words st)).
    { clear -W. revert W. generalize (words st) as l. induction k as [|k IH]; intros [|x l] W; cbn in W; try discriminate; [injection W as ->; reflexivity|]. apply IH in W. exact W. }
    rewrite Sk. cbn [firstn]. split; auto. split; [lia|]. split.
    - intros i Hi. destruct i as [|i]; [rewrite Nat.add_0_r; congruence|]. replace (k + S i) with (k + 1 + i) by lia. apply Pj. lia.
    - destruct Sj as [->|Sj]; auto. right. replace (k + S j) with (k + 1 + j) by lia. exact Sj.
  Qed.
  Lemma fuel_ok (ch : chart) j : (forall i, i < j -> get_cell ch i i <> None) -> j <= List.length (cells ch).
  Proof.
    intro H. set (K := map (fun i => (i, i)) (seq 0 j)). assert (ND : NoDup K). { unfold K. apply FinFun.Injective_map_NoDup; [intros a c Q; congruence|apply seq_NoDup]. }
    assert (IN : incl K (map fst (cells ch))).
    { intros p Hp. unfold K in Hp. apply in_map_iff in Hp. destruct Hp as (i & <- & Hi). apply in_seq in Hi. specialize (H i ltac:(lia)). unfold get_cell in H. destruct (find _ (cells ch)) as [q|] eqn:F; [|congruence].
      apply find_some in F. destruct F as [F1 F2]. apply key_eqb_iff in F2. apply in_map_iff. exists q. auto. }
    assert (X := NoDup_incl_length ND IN). unfold K in X. rewrite !map_length, seq_length in X. exact X.
  Qed.
  Lemma parse_ok : match parse st with
    | Err x => grammar_error x
    | Ok (ws, ts) => exists ch off p, parse_chart st = Ok ch /\ chinv ch off /\ (forall j t, at_word j t -> off j j t) /\ p <= n /\ ws = firstn p (words st) /\ (forall i, i < p -> get_cell ch i i <> None) /\
        (p < n -> get_cell ch p p = None) /\ ts = match p with 0 => [] | _ => at_ ch 0 (p - 1) end
    end.
  Proof.
    unfold ChModel.parse. assert (P := parse_chart_ok). destruct (parse_chart st) as [ch|x]; cbn [bind post] in *; auto. destruct P as (off & I & W & _).
    unfold parse_result. destruct (read_words_ok I (S (List.length (cells ch))) (k := 0) ltac:(lia)) as (j & Ej & Lj & Pj & Sj). rewrite Ej. cbn [bind skipn]. exists ch, off, j. split; auto. split; auto. split; auto. split; [lia|]. split; auto.
    cbn [Nat.add] in *. split; auto. split.
    - intro Q. destruct Sj as [->|Sj]; auto. apply fuel_ok in Pj. lia.
    - destruct (words st) as [|w ws] eqn:Ews; destruct j as [|j]; try reflexivity; cbn [List.length] in Lj; [lia|]. cbn [firstn]. unfold at_. cbn [List.length]. rewrite firstn_length, Nat.min_l by lia. replace (S j - 1) with j by lia. reflexivity.
  Qed.
End Facts.
