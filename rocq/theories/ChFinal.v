(** The theorems about cells and parsing (C84, C85), assembled. *)
From Verif Require Import PyBase PyFacts BobModel BobSpec BobFacts ChModel ChSpec ChCell ChChart.
Close Scope string_scope. Set Implicit Arguments. Unset Strict Implicit.
Lemma offer_ok T S (cat_of : T -> cat) (score : T -> S) ltb ninf ha hs is_same b batches :
  score_order ltb -> 1 <= b -> (forall t, is_same t t = true) -> (forall t u, is_same t u = true -> c_equals ha hs (cat_of t) (cat_of u) = true) -> (forall ts t, In ts batches -> In t ts -> proper (cat_of t)) ->
  exists c, offer cat_of score ltb ninf (c_equals ha hs) is_same b batches = Ok c /\ descending score ltb (trees c) /\ one_per_category cat_of (c_equals ha hs) (trees c) /\ within_beam score ltb b (trees c) /\
    (forall ts t, In ts batches -> In t ts -> kept cat_of score ltb (c_equals ha hs) b (trees c) t) /\ (forall t, In t (trees c) -> exists ts, In ts batches /\ In t ts) /\
    (forall k t, proper k -> (m_get (c_equals ha hs) k (tmap c) = Some t <-> In t (trees c) /\ c_equals ha hs (cat_of t) k = true)) /\
    ((List.length (trees c) < b /\ minsc c = ninf) \/ (exists t, nth_error (trees c) (b - 1) = Some t /\ minsc c = score t)).
Proof.
  intros Ord B Ir Ic P.
  assert (R : forall a, proper a -> c_equals ha hs a a = true) by (intros a Pa; apply equals_iff; auto; apply same_refl).
  assert (Sy : forall a d, proper a -> proper d -> c_equals ha hs a d = true -> c_equals ha hs d a = true) by (intros a d Pa Pd H; apply equals_iff; auto; apply same_sym; now apply equals_iff in H).
  assert (Tr : forall a d e, proper a -> proper d -> proper e -> c_equals ha hs a d = true -> c_equals ha hs d e = true -> c_equals ha hs a e = true).
  { intros a d e Pa Pd Pe H1 H2. apply equals_iff; auto. apply equals_iff in H1; auto. apply equals_iff in H2; auto. eapply same_trans; eauto. }
  assert (G : forall bs c0 off, cinv cat_of score ltb ninf (c_equals ha hs) proper b c0 off -> (forall ts t, In ts bs -> In t ts -> proper (cat_of t)) ->
    exists c, foldM (fun c ts => rmap fst (cell_add cat_of score ltb (c_equals ha hs) is_same b c ts)) bs c0 = Ok c /\
      cinv cat_of score ltb ninf (c_equals ha hs) proper b c (fun u => off u \/ exists ts, In ts bs /\ In u ts) /\ (forall t, In t (trees c) -> In t (trees c0) \/ exists ts, In ts bs /\ In t ts)).
  { induction bs as [|ts bs IH]; intros c0 off I Pb; cbn [foldM].
    - exists c0. split; auto. split; [|auto]. eapply cinv_ext; [|exact I]. intros u [H|(ts & [] & _)]. exact H.
    - destruct (cell_add_ok Ord R Sy Tr Ir Ic B I (ts := ts)) as (c1 & a & E & I1 & M & _). { apply Forall_forall. intros t Ht. apply (Pb ts t); cbn; auto. }
      rewrite E. cbn [rmap bind fst]. destruct (IH c1 _ I1) as (c2 & E2 & I2 & M2). { intros ts' t Hts Ht. apply (Pb ts' t); cbn; auto. }
      exists c2. split; auto. split.
      + eapply cinv_ext; [|exact I2]. intros u [H|(ts' & [<-|Hts] & Hu)]; [left; now right|left; now left|right; eauto].
      + intros t Ht. destruct (M2 t Ht) as [H|(ts' & Hts & H)]; [|right; exists ts'; cbn; auto]. destruct (M t H) as [H'|H']; [right; exists ts; cbn; auto|now left]. }
  destruct (G batches _ _ (cinv_empty cat_of score ltb ninf (c_equals ha hs) proper B) P) as (c & E & I & M). exists c. split; [exact E|].
  split; [apply dsc_nth, (ci_dsc I)|]. split; [apply (uniq_nth Sy (ci_ok I) (ci_uniq I))|]. split; [apply (ci_beam I)|].
  split. { intros ts t Hts Ht. apply (ci_kept I). right. eauto. }
  split. { intros t Ht. destruct (M t Ht) as [[]|H]. exact H. }
  split; [|apply (ci_min I)]. intros k t Pk. apply (m_get_ok Sy Tr t (ci_map I) Pk (ci_uniq I)).
Qed.
(** ** parsing *)
Section Parse.
  Variables (Sc : Type) (ltb : Sc -> Sc -> bool) (add : Sc -> Sc -> Sc) (ninf : Sc) (eqc : cat -> cat -> bool) (is_same : stree Sc -> stree Sc -> bool).
  Variables (lexical : string -> string -> nat -> res ptree) (combine : ptree -> ptree -> res (list ptree)) (change raise_ : ptree -> list ptree).
  Variables (roots : option (list cat)) (rid : string -> list cat -> option nat) (missing_cat missing_span unset : Sc) (weigh : Sc -> Sc) (b : nat) (max_trees : option Z).
  Variable node : ptree -> Prop.
  Hypothesis SN : sane ltb add ninf eqc is_same lexical combine change raise_ b node.
  Variable st : sentence Sc.
  Notation derives := (derives add lexical combine change raise_ rid missing_cat missing_span weigh st).
  Notation parse := (parse ltb add ninf eqc is_same lexical combine change raise_ roots rid missing_cat missing_span unset weigh b max_trees).
  Notation parse_chart := (parse_chart ltb add ninf eqc is_same lexical combine change raise_ roots rid missing_cat missing_span unset weigh b max_trees).
  Lemma cell_sound ch s e : parse_chart st = Ok ch -> let ts := cell_trees ch s e in
    (forall t, In t ts -> derives s e t /\ (e - s + 1 = List.length (words st) -> root_ok roots t)) /\ descending (@t_score Sc) ltb ts /\ one_per_category (@t_cat Sc) eqc ts /\ within_beam (@t_score Sc) ltb b ts.
  Proof.
    intro E. cbv zeta. assert (P := parse_chart_ok roots rid missing_cat missing_span unset weigh max_trees SN st). rewrite E in P. cbn [post] in P. destruct P as (off & I & _). unfold cell_trees.
    split; [intros t Ht; apply (at_derives I Ht)|]. destruct I as [H1 _]. destruct (get_cell ch s e) as [c|] eqn:Ec.
    - destruct (H1 s e c Ec) as (J & _ & _). split; [apply dsc_nth, (ci_dsc J)|]. split; [apply (uniq_nth (g_sym SN) (ci_ok J) (ci_uniq J))|apply (ci_beam J)].
    - split; [|split]; intros i j a d; intros; destruct i; try discriminate; destruct (b - 1); discriminate.
  Qed.
  Lemma cell_complete ch s e t : max_trees = None -> parse_chart st = Ok ch -> candidate derives st roots (cell_trees ch) s e t -> kept (@t_cat Sc) (@t_score Sc) ltb eqc b (cell_trees ch s e) t.
  Proof.
    intros M E C. assert (P := parse_chart_ok roots rid missing_cat missing_span unset weigh max_trees SN st). rewrite E in P. cbn [post] in P. destruct P as (off & I & _ & K). specialize (K M s e t C).
    destruct I as [H1 H2]. unfold cell_trees. destruct (get_cell ch s e) as [c|] eqn:Ec; [|now apply (H2 s e Ec) in K]. destruct (H1 s e c Ec) as (J & _ & _). apply (ci_kept J K).
  Qed.
  Lemma parse_sound ws ts : parse st = Ok (ws, ts) -> List.length (tags st) = List.length (words st) -> (forall tg, In tg (tags st) -> tg <> []) ->
    (2 <= List.length (words st) \/ ts <> [] -> ws = words st) /\
    (forall t, In t ts -> derives 0 (List.length (words st) - 1) t /\ yield_ t = List.combine (words st) (seq 1 (List.length (words st))) /\ root_ok roots t) /\
    descending (@t_score Sc) ltb ts /\ one_per_category (@t_cat Sc) eqc ts /\ within_beam (@t_score Sc) ltb b ts.
  Proof.
    intros E TL TN. assert (P := parse_ok roots rid missing_cat missing_span unset weigh max_trees SN st). rewrite E in P. destruct P as (ch & off & p & Ec & I & W & Lp & -> & Pp & Np & ->).
    assert (All : p = List.length (words st) \/ (p = 0 /\ List.length (words st) = 1)).
    { destruct (Nat.eq_dec p (List.length (words st))) as [Q|Q]; auto. right. assert (L : p < List.length (words st)) by lia. specialize (Np L).
      destruct (Nat.eq_dec (List.length (words st)) 1) as [N1|N1]; [lia|]. exfalso.
      destruct (nth_error (words st) p) as [w|] eqn:Ew; [|apply nth_error_None in Ew; lia]. destruct (nth_error (tags st) p) as [tg|] eqn:Et; [|apply nth_error_None in Et; lia].
      assert (Tn := TN tg (nth_error_In _ _ Et)). destruct tg as [|[c q] tg]; [contradiction|].
      destruct (lexical c w (p + 1)) as [x|x] eqn:El.
      - destruct I as [_ H2]. apply (H2 p p Np (TLeaf x w (p + 1) (weigh q))). apply W. split; [eapply dv_leaf; eauto; now left|]. split; [intro X; lia|exact Logic.I].
      - assert (Bad : exists r, lex_all ltb add ninf eqc is_same lexical change raise_ roots rid missing_cat missing_span unset weigh b st (Chart [] 0%Z) 0 (words st) (tags st) = Err r).
        { clear -El Ew Et. assert (G : forall k i ws tgs ch, nth_error ws k = Some w -> nth_error tgs k = Some ((c, q) :: tg) -> i + k = p ->
            exists r, lex_all ltb add ninf eqc is_same lexical change raise_ roots rid missing_cat missing_span unset weigh b st ch i ws tgs = Err r).
          { induction k as [|k IH]; intros i [|w0 ws] [|tg0 tgs] ch H1 H2 H3; cbn in H1, H2; try discriminate; cbn [lex_all].
            - injection H1 as ->. injection H2 as ->. assert (i = p) by lia. subst i. unfold lex_word. cbn [mapM fst snd]. rewrite El. cbn. eauto.
            - destruct (lex_word _ _ _ _ _ _ _ _ _ _ _ _ _ _ _ _ ch i w0 tg0) as [ch1|r]; cbn [bind]; eauto. apply IH; auto. lia. }
          apply (G p 0); auto. }
        destruct Bad as [r Bad]. unfold ChModel.parse_chart in Ec. cbv zeta in Ec. rewrite Bad in Ec. discriminate. }
    destruct All as [->|[-> N1]].
    - split; [intros _; apply firstn_all|]. destruct (words st) as [|w0 ws0] eqn:Ews.
      + cbn [List.length]. split; [intros t []|]. split; [|split]; intros i j a d; intros; destruct i; try discriminate; destruct (b - 1); discriminate.
      + rewrite <- Ews in *. destruct (List.length (words st)) as [|m] eqn:En; [rewrite Ews in En; discriminate|]. rewrite <- En.
        destruct (@cell_sound ch 0 (List.length (words st) - 1) Ec) as (D & D2). split; [|exact D2]. intros t Ht. destruct (D t Ht) as [Dt Rt]. split; auto. split; [apply (yield_all Dt)|]. apply Rt. lia.
    - rewrite N1. split; [intros [X|X]; [lia|contradiction]|]. split; [intros t []|]. split; [|split]; intros i j a d; intros; destruct i; try discriminate; destruct (b - 1); discriminate.
  Qed.
  Lemma parse_error x : parse st = Err x -> (exists l r, combine l r = Err x) \/ (exists c w i, lexical c w i = Err x).
  Proof. intro E. assert (P := parse_ok roots rid missing_cat missing_span unset weigh max_trees SN st). rewrite E in P. exact P. Qed.
  Lemma combinations_ok s e t : derives s e t -> forall l r x, In (l, r, x) (combinations t) -> node l /\ node r /\ exists xs, combine l r = Ok xs /\ In x xs.
  Proof.
    induction 1; intros a d z I; cbn [combinations] in I; try contradiction; eauto. cbn [In] in I. rewrite in_app_iff in I. destruct I as [Q|[I|I]]; eauto. injection Q as <- <- <-.
    split; [eapply derives_node; eauto|]. split; [eapply derives_node; eauto|]. eauto.
  Qed.
  Lemma unary_steps_ok s e t : derives s e t -> forall c x, In (c, x) (unary_steps t) -> In x (change c) \/ In x (raise_ c).
  Proof.
    induction 1; intros c0 z I; cbn [unary_steps] in I; try contradiction.
    - rewrite in_app_iff in I. destruct I as [I|I]; eauto.
    - destruct I as [Q|I]; eauto. injection Q as <- <-. auto.
    - destruct I as [Q|I]; eauto. injection Q as <- <-. auto.
    - destruct I as [Q|I]; [injection Q as <- <-; auto|]. apply IHderives. exact I.
  Qed.
  Lemma tagged_words_ok s e t : derives s e t -> forall x w, In (x, w) (tagged_words t) -> exists c i, lexical c w i = Ok x.
  Proof. induction 1; intros yy vv I; cbn [tagged_words] in I; eauto; [destruct I as [Q|[]]; injection Q as <- <-; eauto|]. rewrite in_app_iff in I. destruct I as [I|I]; eauto. Qed.
End Parse.
(** ** Bobcat's grammar *)
Lemma renamed_proper rho g c c' : renamed rho g c c' -> proper c -> proper c'.
Proof. induction 1; intro P; inversion P; subst; constructor; auto. Qed.
Lemma outcome_proper pl pr l r t : (forall a c d, In d (pl a c) -> proper d) -> (forall a c d, In d (pr a c) -> proper d) -> proper (p_cat l) -> proper (p_cat r) -> outcome pl pr l r t -> proper (p_cat t).
Proof.
  intros HL HR Pl Pr O. destruct O as [_ C|_ _ E _|_ _ _ E _|_ _ [[E _]|H]|_ _ [[E _]|H]|? ? ? ? ? ? ? ? ? ? ? ? ? ? ? _ _ _ _ _ E]; try (rewrite E; auto; fail); eauto.
  - destruct C as (rl & rr & g & yl & yr & C & _). destruct t as [ru c tl tr vm]. cbn [p_cat p_rule] in *. destruct l as [ru1 cl l1 l2 vl]. destruct r as [ru2 cr r1 r2 vr]. cbn [p_cat] in *.
    inversion C; subst; repeat match goal with H : proper (Sl _ _ _ _ _ _) |- _ => inversion H; subst; clear H end; repeat (first [eapply renamed_proper; eauto; fail | constructor; auto]); auto.
  - rewrite E. constructor; auto.
Qed.
Lemma match_rule_in T eqb (rules : list (cat * list T)) c d : In d (match_rule eqb rules c) -> exists p, In p rules /\ In d (snd p).
Proof.
  unfold match_rule. destruct (find (fun p => eqb (fst p) c) rules) as [p|] eqn:F; [apply find_some in F; destruct F; eauto|]. destruct (find (fun p => c_matches (fst p) c) rules) as [p|] eqn:F2; [apply find_some in F2; destruct F2; eauto|]. intros [].
Qed.
Lemma bob_sane S (ltb : S -> S -> bool) add ninf ha hs is_same b order eisner pl pr tbl cats changes raises :
  score_order ltb -> score_add ltb add -> (forall a, ltb a ninf = false) -> 1 <= b -> (forall t, is_same t t = true) -> (forall t u, is_same t u = true -> c_equals ha hs (t_cat t) (t_cat u) = true) ->
  (forall vs v, In v (order vs) <-> In v vs) -> (forall a c d, In d (pl a c) -> proper d) -> (forall a c d, In d (pr a c) -> proper d) -> (forall p, In p cats -> proper (snd p)) ->
  (forall p d, In p changes -> In d (snd p) -> proper d) -> (forall p d, In p raises -> In d (snd p) -> proper d) ->
  sane ltb add ninf (c_equals ha hs) is_same (bob_lexical cats) (fun l r => combine order l r eisner pl pr tbl) (bob_change (c_equals ha hs) changes) (bob_raise (c_equals ha hs) raises) b (fun x => proper (p_cat x)).
Proof.
  intros O A N B Ir Ic Or PL PR PC PCh PRa. constructor; auto.
  - intros x P. apply equals_iff; auto. apply same_refl.
  - intros x y P Q H. apply equals_iff; auto. apply same_sym. now apply equals_iff in H.
  - intros x y z P Q R H1 H2. apply equals_iff; auto. apply equals_iff in H1; auto. apply equals_iff in H2; auto. eapply same_trans; eauto.
  - intros c w i x E. unfold bob_lexical in E. destruct (find _ cats) as [p|] eqn:F; [|discriminate]. apply find_some in F. destruct F as [F _]. destruct (c_var (snd p) =? 0); [discriminate|]. injection E as <-. cbn. auto.
  - intros l r xs x Pl Pr E I. destruct (sound Or Pl Pr E I) as (_ & _ & Oc). exact (outcome_proper PL PR Pl Pr Oc).
  - intros x y P I. unfold bob_change in I. apply in_map_iff in I. destruct I as (c & <- & I). cbn [p_cat]. apply match_rule_in in I. destruct I as (p & Hp & Hd). eauto.
  - intros x y P I. unfold bob_raise in I. apply in_map_iff in I. destruct I as (c & <- & I). cbn [p_cat]. apply match_rule_in in I. destruct I as (p & Hp & Hd). eauto.
Qed.
Lemma bob_unary eqc changes raises c x : In x (bob_change eqc changes c) \/ In x (bob_raise eqc raises c) -> unary_ok eqc changes raises c x.
Proof.
  intros [I|I]; [unfold bob_change in I|unfold bob_raise in I]; apply in_map_iff in I; destruct I as (k & <- & I); (split; [reflexivity|]); cbn [p_rule p_cat p_vars]; [left|right]; split; try reflexivity; (split; [exact I|]); intros v E.
  - intro NZ. rewrite E. destruct (Nat.eqb_spec (c_var k) 0); [contradiction|]. unfold upd. now rewrite Nat.eqb_refl.
  - rewrite E. reflexivity.
Qed.
Lemma bob_tagged cats c w i x : bob_lexical cats c w i = Ok x -> tagged_ok cats x w.
Proof.
  unfold bob_lexical. destruct (find _ cats) as [p|] eqn:F; [|discriminate]. apply find_some in F. destruct F as [F _]. destruct (c_var (snd p) =? 0); [discriminate|]. intro E. injection E as <-. split; [reflexivity|]. split; [exists (fst p); destruct p; exact F|]. reflexivity.
Qed.
Lemma zlt_order : score_order zlt.
Proof. constructor; intros [a|] [b|]; cbn; try discriminate; auto; try (intros [c|]; cbn; try discriminate; auto); rewrite ?Z.ltb_lt, ?Z.ltb_ge; try (destruct c); intros; try discriminate; rewrite ?Z.ltb_ge in *; lia. Qed.
Lemma zadd_ok : score_add zlt zadd.
Proof. constructor; intros [a|] [b|] [c|]; cbn; try discriminate; auto; rewrite !Z.ltb_ge; lia. Qed.
Lemma equals_refl ha hs c : c_equals ha hs c c = true.
Proof.
  induction c as [a f v rel|d r IHr x IHx v rel tr]; cbn [c_equals]; rewrite Z.eqb_refl; cbn [negb].
  - cbn [c_atom c_feat]. rewrite String.eqb_refl. unfold atomk_eqb. rewrite Nat.eqb_refl. reflexivity.
  - rewrite Ascii.eqb_refl, IHr, IHx. reflexivity.
Qed.
Lemma ex_sane b : 1 <= b -> sane zlt zadd None ex_eqc ex_same (bob_lexical ex_cats) (fun l r => combine (fun l => l) l r true (fun _ _ => []) (fun _ _ => []) (fun _ _ => true)) (bob_change ex_eqc []) (bob_raise ex_eqc [(ex_np, [ex_tr])]) b (fun x => proper (p_cat x)).
Proof.
  intro B. apply bob_sane; auto; try (intros; contradiction).
  - apply zlt_order.
  - apply zadd_ok.
  - intros [a|]; reflexivity.
  - intro t. apply equals_refl.
  - reflexivity.
  - intros p Hp. cbn in Hp. repeat (destruct Hp as [<-|Hp]; [cbn; prp|]). contradiction.
  - intros p d Hp Hd. cbn in Hp. destruct Hp as [<-|[]]. cbn in Hd. destruct Hd as [<-|[]]. unfold ex_tr. prp.
Qed.
