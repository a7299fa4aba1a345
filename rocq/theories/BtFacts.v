(** Proofs about the trees BobcatParser returns. *)
From Coq Require Import Ascii.
From Verif Require Import PyBase CCGModel CCGSpec CCGWide.
From Verif Require Import BobModel BobSpec BobFacts ChModel ChSpec ChCell ChChart ChFinal BtModel BtSpec.
Close Scope string_scope. Set Implicit Arguments. Unset Strict Implicit.

Lemma to_biclosed_ok c : BobSpec.proper c -> to_biclosed c = Ok (cat_type c).
Proof.
  induction 1 as [a f v rel N|d r x v rel tr D _ IHr _ IHx].
  - destruct a; try reflexivity. congruence.
  - cbn [to_biclosed]. rewrite IHr, IHx. cbn [bind]. unfold cat_type. cbn [skeleton skel_type]. destruct D as [-> | ->]; reflexivity.
Qed.
Lemma type_proper c : BobSpec.proper c -> CCGSpec.proper (cat_type c).
Proof. induction 1 as [a f v rel N|d r x v rel tr D _ IHr _ IHx]; [destruct a; try exact I; congruence|split; assumption]. Qed.
Lemma not_mark c : ~ punctuation c -> cat_type c <> PUNCTUATION.
Proof.
  intros N E. apply N. destruct c as [a f v rel|]; [|discriminate]. exists a, f, v, rel. split; [reflexivity|]. destruct a; try discriminate E; cbn; tauto.
Qed.
Lemma mark_type c : punctuation c -> cat_type c = PUNCTUATION.
Proof. intros (a & f & v & rel & -> & I). cbn [In] in I. repeat (destruct I as [<-|I]; [reflexivity|]). contradiction. Qed.
(** the textbook's rules are instances *)
Lemma textbook_instance ru l r t : textbook ru l r t -> ru <> RGBC -> instance (ccg_rule ru) [skel_type l; skel_type r] (skel_type t).
Proof.
  intros T N. destruct T; cbn [skel_type ccg_rule Ascii.eqb Bool.eqb]; try congruence; try constructor.
  - apply (@I_GFC (skel_type X) (skel_type Y) [(Over, skel_type W); (Over, skel_type Z)]); [discriminate|repeat constructor].
  - apply (@I_GFC (skel_type X) (skel_type Y) [(Over, skel_type V); (Over, skel_type W); (Over, skel_type Z)]); [discriminate|repeat constructor].
  - apply (@I_GBX (skel_type X) (skel_type Y) [(Over, skel_type W)] (skel_type Z)).
  - apply (@I_GBX (skel_type X) (skel_type Y) [(Over, skel_type V); (Over, skel_type W)] (skel_type Z)).
Qed.
Lemma matches_skeleton a b : BobSpec.proper a -> c_matches a b = true -> skeleton a = skeleton b.
Proof.
  intro P. revert b. induction P as [k f v rel N|d r x v rel tr D _ IHr _ IHx]; intros b E; destruct b as [k' f' v' rel'|d' r' x' v' rel' tr']; cbn [c_matches c_atom] in E; try discriminate.
  - apply andb_true_iff in E as (E & _). cbn [skeleton]. f_equal. unfold atomk_eqb in E. apply Nat.eqb_eq in E. destruct k, k'; try discriminate; reflexivity.
  - apply andb_true_iff in E as (E & _). unfold atomk_eqb in E. destruct k; try discriminate. congruence.
  - apply andb_true_iff in E as (E & Ex). apply andb_true_iff in E as (Ed & Er). apply Ascii.eqb_eq in Ed. subst d'. cbn [skeleton]. f_equal; auto.
Qed.
Lemma equals_skeleton ha hs a b : BobSpec.proper a -> c_equals ha hs a b = true -> skeleton a = skeleton b.
Proof.
  intro P. revert b. induction P as [k f v rel N|d r x v rel tr D _ IHr _ IHx]; intros b E; destruct b as [k' f' v' rel'|d' r' x' v' rel' tr']; cbn [c_equals c_atom] in E; (destruct (negb _); [discriminate|]); try discriminate.
  - apply andb_true_iff in E as (E & _). cbn [skeleton]. f_equal. unfold atomk_eqb in E. apply Nat.eqb_eq in E. destruct k, k'; try discriminate; reflexivity.
  - apply andb_true_iff in E as (E & _). unfold atomk_eqb in E. destruct k; try discriminate. congruence.
  - apply andb_true_iff in E as (E & Ex). apply andb_true_iff in E as (Ed & Er). apply Ascii.eqb_eq in Ed. subst d'. cbn [skeleton]. f_equal; auto.
Qed.
Lemma rule_skeleton ha hs (rules : list (cat * list cat)) c d : (forall p, In p rules -> BobSpec.proper (fst p)) -> In d (match_rule (c_equals ha hs) rules c) ->
  exists p, In p rules /\ In d (snd p) /\ skeleton (fst p) = skeleton c.
Proof.
  intros P. unfold match_rule. destruct (find (fun p => c_equals ha hs (fst p) c) rules) as [p|] eqn:F.
  - apply find_some in F. destruct F as [F E]. intro H. exists p. split; auto. split; auto. eapply equals_skeleton; eauto.
  - destruct (find (fun p => c_matches (fst p) c) rules) as [p|] eqn:F2; [|intros []]. apply find_some in F2. destruct F2 as [F2 E]. intro H. exists p. split; auto. split; auto. eapply matches_skeleton; eauto.
Qed.

Section Tree.
  Variables (S : Type) (ha : atomk -> string -> Z) (hs : Z -> Z -> ascii -> Z) (pl pr : cat -> cat -> list cat) (cats : list (string * cat)) (changes raises : list (cat * list cat)).
  Hypothesis PC : forall p, In p cats -> BobSpec.proper (snd p).
  Hypothesis PCh : forall p d, In p changes -> In d (snd p) -> BobSpec.proper d.
  Hypothesis PRa : forall p d, In p raises -> In d (snd p) -> BobSpec.proper d.
  Definition bin_ok (l r x : ptree) : Prop := children x = (Some l, Some r) /\ outcome pl pr l r x /\ BobSpec.proper (p_cat x).
  Definition un_ok (c x : ptree) : Prop := In x (bob_change (c_equals ha hs) changes c) \/ In x (bob_raise (c_equals ha hs) raises c).
  Definition leaf_ok (x : ptree) (w : string) : Prop := exists c i, bob_lexical cats c w i = Ok x.
  Fixpoint ok (t : stree S) : Prop :=
    match t with
    | TLeaf x w _ _ => leaf_ok x w
    | TUn x c _ => un_ok (t_node c) x /\ ok c
    | TBin x l r _ => bin_ok (t_node l) (t_node r) x /\ ok l /\ ok r
    end.
  Lemma steps_ok (t : stree S) : (forall l r x, In (l, r, x) (combinations t) -> bin_ok l r x) -> (forall c x, In (c, x) (unary_steps t) -> un_ok c x) -> (forall x w, In (x, w) (tagged_words t) -> leaf_ok x w) -> ok t.
  Proof.
    induction t as [x w i sc|x c IH sc|x l IHl r IHr sc]; cbn [combinations unary_steps tagged_words ok]; intros B U L.
    - apply L. now left.
    - split; [apply U; now left|]. apply IH; auto. intros. apply U. now right.
    - split; [apply B; now left|]. split; [apply IHl|apply IHr]; intros; ((apply B; right) || apply U || apply L); apply in_or_app; auto.
  Qed.
  Lemma un_proper c x : un_ok c x -> BobSpec.proper (p_cat x).
  Proof. intros [I|I]; [unfold bob_change in I|unfold bob_raise in I]; apply in_map_iff in I; destruct I as (k & <- & I); cbn [p_cat]; apply match_rule_in in I; destruct I as (p & Hp & Hd); eauto. Qed.
  Lemma leaf_inv x w : leaf_ok x w -> exists c, BobSpec.proper c /\ x = PT RL c None None (upd (fun _ => None) (c_var c) ([w], true)).
  Proof.
    intros (c & i & E). unfold bob_lexical in E. destruct (find _ cats) as [p|] eqn:F; [|discriminate]. apply find_some in F. destruct F as [F _]. destruct (c_var (snd p) =? 0)%nat; [discriminate|]. injection E as <-. eauto.
  Qed.
  Lemma ok_proper (t : stree S) : ok t -> BobSpec.proper (t_cat t).
  Proof. destruct t as [x w i sc|x c sc|x l r sc]; cbn [ok]; unfold t_cat; cbn [t_node]; [intro H; apply leaf_inv in H; destruct H as (c & P & ->); exact P|intros (H & _); exact (un_proper H)|intros ((_ & _ & P) & _); exact P]. Qed.
  Lemma image_type (t : stree S) : t_type (image t) = cat_type (t_cat t).
  Proof. now destruct t. Qed.
  Lemma outcome_rule l r x : outcome pl pr l r x -> In (p_rule x) [RFA; RBA; RFC; RBC; RBX; RGFC; RGBX; RCONJ; RADJ; RLP; RRP; RGBC].
  Proof. intros [I _|E|E|E|E|? ? ? ? ? ? ? ? ? ? ? ? ? ? ? E]; try (rewrite E; cbn; tauto). cbn in I |- *. tauto. Qed.
  Lemma build_image (t : stree S) : ok t -> build_ccgtree (t_node t) = Ok (image t).
  Proof.
    induction t as [x w i sc|x c IH sc|x l IHl r IHr sc]; cbn [ok t_node image].
    - intro H. apply leaf_inv in H. destruct H as (c & P & ->). cbn [build_ccgtree bind app]. unfold p_leaf, p_word. cbn [p_rule p_leaf prule_n Nat.eqb p_vars p_cat]. unfold upd. rewrite Nat.eqb_refl. cbn [bind].
      unfold p_leaf. cbn [p_rule prule_n Nat.eqb bind]. rewrite (to_biclosed_ok P). cbn [bind p_cat]. unfold mk_tree. cbn. destruct (negb (w =? "")%string); reflexivity.
    - intros (U & Oc). specialize (IH Oc). assert (P := un_proper U).
      assert (K : exists ru vm, x = PT ru (p_cat x) (Some (t_node c)) None vm /\ In ru [RU; RFTR; RBTR]).
      { destruct U as [I|I]; [unfold bob_change in I|unfold bob_raise in I]; apply in_map_iff in I; destruct I as (k & <- & _); cbn [p_cat]; do 2 eexists; (split; [reflexivity|]); [now left|]. destruct (fwd k); cbn; tauto. }
      destruct K as (ru & vm & Ex & Ir). rewrite Ex. cbn [p_rule p_cat build_ccgtree bind]. rewrite IH. cbn [bind app]. unfold p_leaf. cbn [p_rule].
      cbn [In] in Ir. destruct Ir as [<-|[<-|[<-|[]]]]; cbn [prule_n Nat.eqb bind]; rewrite (to_biclosed_ok P); reflexivity.
    - intros ((Ch & Oc & P) & Ol & Or). specialize (IHl Ol). specialize (IHr Or). assert (Ir := outcome_rule Oc). destruct x as [ru c a b vm]. cbn [children] in Ch. injection Ch as -> ->. cbn [p_rule p_cat] in *.
      cbn [build_ccgtree bind]. rewrite IHl, IHr. cbn [bind app]. unfold p_leaf. cbn [p_rule].
      cbn [In] in Ir. repeat (destruct Ir as [<-|Ir]; [cbn [prule_n Nat.eqb bind]; rewrite (to_biclosed_ok P); reflexivity|]). contradiction.
  Qed.
  Lemma image_proper (t : stree S) : ok t -> all_types CCGSpec.proper (image t).
  Proof.
    induction t as [x w i sc|x c IH sc|x l IHl r IHr sc]; intro H; assert (P := type_proper (ok_proper H)); cbn [ok] in H; cbn [image]; constructor; auto.
    - constructor; [|constructor]. apply IH. apply H.
    - constructor; [apply IHl; apply H|]. constructor; [apply IHr; apply H|constructor].
  Qed.
  Lemma image_sentence (t : stree S) : ok t -> CCGSpec.sentence (image t) = spoken t.
  Proof.
    induction t as [x w i sc|x c IH sc|x l IHl r IHr sc]; cbn [ok image spoken]; [reflexivity| |].
    - intros (U & Oc). rewrite <- (IH Oc). assert (K : In (p_rule x) [RU; RFTR; RBTR]).
      { destruct U as [I|I]; [unfold bob_change in I|unfold bob_raise in I]; apply in_map_iff in I; destruct I as (k & <- & _); cbn [p_rule]; [now left|]. destruct (fwd k); cbn; tauto. }
      cbn [In] in K. destruct K as [<-|[<-|[<-|[]]]]; cbn [ccg_rule CCGSpec.sentence map List.concat]; apply app_nil_r.
    - intros ((_ & Oc & _) & Ol & Or). rewrite <- (IHl Ol), <- (IHr Or). assert (Ir := outcome_rule Oc). cbn [In] in Ir.
      repeat (destruct Ir as [<-|Ir]; [cbn [ccg_rule CCGSpec.sentence map List.concat]; rewrite ?app_nil_r; reflexivity|]). contradiction.
  Qed.
  Lemma image_leaves (t : stree S) : map t_text (leaves (image t)) = tree_words t.
  Proof.
    induction t as [x w i sc|x c IH sc|x l IHl r IHr sc]; cbn [image leaves tree_words map List.concat]; [reflexivity|rewrite app_nil_r; exact IH|]. rewrite app_nil_r, map_app. congruence.
  Qed.
  (** heads take any type *)
  Lemma leaf_takes (x : ptree) w i sc o : w <> ""%string -> CCGSpec.proper o -> o <> PUNCTUATION -> takes (image (TLeaf x w i sc : stree S)) o.
  Proof. intros. now apply T_word. Qed.
  Lemma mark_image (t : stree S) : mark t -> punct_leaf (image t).
  Proof. intros (x & w & i & sc & -> & P). exists (Some w). cbn [image]. now rewrite (mark_type P). Qed.
  Lemma conj_takes (t : stree S) : conj_word t -> forall o, CCGSpec.proper o -> o <> PUNCTUATION -> takes (image t) o.
  Proof. induction 1 as [x w i sc N|x l r sc E M _ IH|x l r sc E M _ IH]; intros o P Q; [now apply leaf_takes| |]; cbn [image]; rewrite E; [apply T_lp|apply T_rp]; auto using mark_image. Qed.
  Hypothesis PK : forall p, In p raises -> BobSpec.proper (fst p).
  Hypothesis RT : raising_table raises.
  Ltac bad E := solve [exfalso; repeat match goal with I : In (p_rule _) _ |- _ => rewrite E in I; cbn in I; repeat (destruct I as [I|I]; [discriminate|]); contradiction | I : p_rule _ = _ |- _ => rewrite E in I; discriminate end].
  Lemma un_image c x sc y : un_ok (t_node c) x -> In (p_rule x) [RFTR; RBTR] -> y = image c -> instance (ccg_rule (p_rule x)) [t_type y] (cat_type (p_cat x)) /\ (image (TUn x c sc : stree S)) = CT None (ccg_rule (p_rule x)) (cat_type (p_cat x)) [y].
  Proof.
    intros U I ->. split; [|reflexivity]. rewrite image_type. destruct U as [U|U].
    - exfalso. unfold bob_change in U. apply in_map_iff in U. destruct U as (k & <- & _). cbn in I. destruct I as [I|[I|[]]]; discriminate.
    - unfold bob_raise in U. apply in_map_iff in U. destruct U as (k & <- & U). cbn [p_rule p_cat] in *. destruct (rule_skeleton PK U) as (p & Hp & Hd & Es). destruct (RT Hp Hd) as (T & D). unfold t_cat, cat_type. rewrite <- Es.
      assert (F : fwd k = match skeleton k with KS d _ _ => Ascii.eqb d "/" | _ => false end) by (destruct k; reflexivity). destruct D as [D|D]; rewrite D in F |- *; cbn in F; rewrite F; cbn; constructor.
  Qed.
  Lemma bin_image l r x : bin_ok l r x -> In (p_rule x) [RFA; RBA; RFC; RBC; RBX; RGFC; RGBX] -> instance (ccg_rule (p_rule x)) [cat_type (p_cat l); cat_type (p_cat r)] (cat_type (p_cat x)).
  Proof.
    intros (_ & Oc & _) I. destruct Oc as [_ C|E|E|E|E|? ? ? ? ? ? ? ? ? ? ? ? ? ? ? E]; try (bad E).
    destruct C as (rl & rr & g & yl & yr & P & U & _). apply textbook_instance; [exact (prescribed_textbook P U)|]. intro E. bad E.
  Qed.
  Lemma gbc_image l r x Y Z W : bin_ok l r x -> p_rule x = RGBC -> skeleton (p_cat l) = KS "\" (KS "\" Y Z) W -> skeleton (p_cat r) = KS "\" Y Y -> instance GBC [cat_type (p_cat l); cat_type (p_cat r)] (cat_type (p_cat x)).
  Proof.
    intros (_ & Oc & _) E El Er. destruct Oc as [I _|E'|E'|E'|E'|? ? ? ? ? ? ? ? ? ? ? ? ? ? ? _ El' _ Er' _ Et]; try (bad E; fail); try congruence.
    unfold cat_type. rewrite Et, El, Er. cbn [skel_type]. cbn. apply (@I_GBC (skel_type Y) (skel_type Y) [(Under, skel_type W); (Under, skel_type Z)]); [discriminate|repeat constructor].
  Qed.
  Lemma conj_type l r x : bin_ok l r x -> In (p_rule x) [RCONJ; RADJ] -> cat_type (p_cat l) = CONJUNCTION \/ cat_type (p_cat l) = PUNCTUATION.
  Proof.
    intros (_ & Oc & _) I. assert (G : In (c_atom (p_cat l)) [AConj; AComma; ASemi]).
    { destruct Oc as [J _|E J|E J|E|E|? ? ? ? ? ? ? ? ? ? ? ? ? ? ? E]; auto; try (bad E; fail); [|rewrite J; now left]. exfalso. cbn in I. destruct I as [I|[I|[]]]; rewrite <- I in J; cbn in J; repeat (destruct J as [J|J]; [discriminate|]); contradiction. }
    unfold cat_type. destruct (p_cat l) as [a f v rel|]; cbn [c_atom] in G; [|cbn in G; repeat (destruct G as [G|G]; [discriminate|]); contradiction].
    cbn [In] in G. destruct G as [<-|[<-|[<-|[]]]]; cbn; auto.
  Qed.
  Lemma image_takes (t : stree S) : ok t -> regular t -> takes (image t) (t_type (image t)) /\ (headed t -> forall o, CCGSpec.proper o -> o <> PUNCTUATION -> takes (image t) o).
  Proof.
    induction t as [x w i sc|x c IH sc|x l IHl r IHr sc]; intros O R; assert (P := type_proper (ok_proper O)); assert (O' := O); cbn [ok] in O.
    - inversion R; subst. split; [|intros _ o Po No; now apply leaf_takes]. apply leaf_takes; auto; rewrite image_type; auto. now apply not_mark.
    - split; [|intro H; inversion H]. destruct O as (U & Oc). inversion R; subst; match goal with H : In (p_rule x) _ |- _ => rename H into Ix | H : p_rule x = _ |- _ => rename H into Ix end.
      + destruct (IH Oc) as (Tc & _); auto. destruct (un_image sc U Ix (Logic.eq_refl _)) as (In_ & Ei). rewrite Ei. cbn [t_type]. apply T_rule; auto. cbn [map]. constructor; [exact Tc|constructor].
      + destruct (IH Oc) as (_ & Th); auto. cbn [image t_type]. rewrite Ix. cbn [ccg_rule]. apply T_unary; [rewrite image_type; assumption|]. apply Th; auto. now apply not_mark.
    - destruct O as (B & Ol & Or). assert (Pl := type_proper (ok_proper Ol)). assert (Pr := type_proper (ok_proper Or)). unfold t_cat in P. cbn [t_node] in P.
      inversion R; subst; match goal with H : In (p_rule x) _ |- _ => rename H into Ix | H : p_rule x = _ |- _ => rename H into Ix end.
      + destruct (IHl Ol) as (Tl & Hl); auto. destruct (IHr Or) as (Tr & Hr); auto. split.
        * cbn [image t_type]. apply T_rule; auto; [cbn [map]; rewrite !image_type; now apply bin_image|]. cbn [map]. constructor; auto.
        * intro H. inversion H; subst; intros o Po No; cbn [image]; match goal with K : p_rule x = _ |- _ => rename K into Eh end.
          -- rewrite Eh. apply T_fa; auto. apply Hl; auto; [split; auto; rewrite image_type; exact Pr|discriminate].
          -- rewrite Eh. apply T_ba; auto. apply Hr; auto; [split; auto; rewrite image_type; exact Pl|discriminate].
          -- bad Eh.
          -- bad Eh.
      + destruct (IHl Ol) as (Tl & Hl); auto. destruct (IHr Or) as (Tr & Hr); auto. split.
        * cbn [image t_type]. rewrite Ix. apply T_rule; auto; [cbn [map]; rewrite !image_type; eapply gbc_image; eauto|]. cbn [map]. constructor; auto.
        * intro H. inversion H; subst; congruence.
      + destruct (IHr Or) as (Tr & Hr); auto. split.
        * cbn [image t_type]. rewrite Ix. apply T_lp; [now apply mark_image|]. rewrite image_type in Tr. unfold cat_type. match goal with K : skeleton (p_cat x) = _ |- _ => rewrite K end. exact Tr.
        * intro H. inversion H; subst; try congruence. intros o Po No. cbn [image]. rewrite Ix. apply T_lp; auto using mark_image.
      + destruct (IHl Ol) as (Tl & Hl); auto. split.
        * cbn [image t_type]. rewrite Ix. apply T_rp; [now apply mark_image|]. rewrite image_type in Tl. unfold cat_type. match goal with K : skeleton (p_cat x) = _ |- _ => rewrite K end. exact Tl.
        * intro H. inversion H; subst; try congruence. intros o Po No. cbn [image]. rewrite Ix. apply T_rp; auto using mark_image.
      + destruct (IHr Or) as (Tr & Hr); auto. assert (Ct := conj_type B Ix). split; [|intro H; inversion H; subst; match goal with K : p_rule x = _ |- _ => bad K end].
        assert (Tc : takes (image l) (CSlash (cat_type (p_cat x)) Over (t_type (image r)))). { apply conj_takes; auto; [split; auto; rewrite image_type; exact Pr|discriminate]. }
        cbn [image t_type]. cbn in Ix. destruct Ix as [<-|[<-|[]]]; cbn [ccg_rule]; [apply T_conj_l; auto; rewrite image_type; exact Ct|apply T_fa; auto].
  Qed.
End Tree.

Lemma yield_words S (t : stree S) : map fst (yield_ t) = tree_words t.
Proof. induction t as [x w i sc|x c IH sc|x l IHl r IHr sc]; cbn [yield_ tree_words map]; auto. rewrite map_app. congruence. Qed.
Lemma map_fst_combine_ A B (l : list A) (m : list B) : List.length l = List.length m -> map fst (List.combine l m) = l.
Proof. revert m. induction l as [|a l IH]; intros [|b m] E; cbn in *; try discriminate; auto. f_equal. apply IH. now injection E. Qed.
Lemma bt_ok S ltb add ninf ha hs is_same order eisner pl pr tbl cats changes raises roots rid missing_cat missing_span unset weigh b max_trees :
  @bobcat S ltb add ninf ha hs is_same order pl pr cats changes raises b -> let eqc := c_equals ha hs in
  forall st ws ts t, ChModel.parse ltb add ninf eqc is_same (bob_lexical cats) (fun l r => combine order l r eisner pl pr tbl) (bob_change eqc changes) (bob_raise eqc raises) roots rid missing_cat missing_span unset weigh b max_trees st = Ok (ws, ts) ->
    List.length (tags st) = List.length (words st) -> (forall tg, In tg (tags st) -> tg <> []) -> In t ts -> ok ha hs pl pr cats changes raises t /\ tree_words t = words st.
Proof.
  intros BC eqc st ws ts t E TL TN I. destruct BC as [O A N B Ir Ic Or PL PR PC PCh PRa].
  assert (SN := bob_sane (ltb := ltb) eisner tbl O A N B Ir Ic Or PL PR PC PCh (fun p d Hp => proj2 (PRa p Hp) d)). destruct (parse_sound SN E TL TN) as (_ & D & _). destruct (D t I) as (Dt & Y & _). split.
  - apply steps_ok.
    + intros l r x Hi. destruct (combinations_ok SN Dt Hi) as (Pl & Pr & xs & Ec & Ix). destruct (sound Or Pl Pr Ec Ix) as (_ & Ch & Oc). split; [exact Ch|]. split; [exact Oc|]. exact (outcome_proper PL PR Pl Pr Oc).
    + intros c x Hi. exact (unary_steps_ok Dt Hi).
    + intros x w Hi. exact (tagged_words_ok Dt Hi).
  - rewrite <- yield_words, Y. apply map_fst_combine_. now rewrite seq_length.
Qed.
Lemma parse_tree_diagram collapse x : parse_tree x -> exists d, tree_to_diagram false collapse x = Ok d /\ DiagSpec.typed d [] (to_grammar (if collapse then rename np_to_n (t_type x) else t_type x)) /\ word_names d = CCGSpec.sentence x.
Proof.
  intro P. destruct collapse; [|destruct (takes_diagram (proj1 P)) as (d & E & T & N & _); eauto].
  destruct (CCGWide.collapse_takes false P) as (-> & D). destruct (takes_diagram D) as (d & E & T & N & _). rewrite CCGMoreFacts.retype_type in T. rewrite CCGMoreFacts.retype_sentence in N. eauto.
Qed.
