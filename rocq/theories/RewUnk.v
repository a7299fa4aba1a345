(** Unknown words (proofs only). *)
From Verif Require Import PyBase PyFacts TyModel TyFacts DiagModel DiagSpec DiagFacts DiagRot BoxEq
  FunctorModel FunctorSpec FunctorCache FunctorFacts RewModel RewSpec RewFacts.
Set Implicit Arguments. Unset Strict Implicit.

Lemma ventry_eqb_iff x y : ventry_eqb x y = true <-> x = y.
Proof.
  destruct x, y; cbn; try (split; congruence).
  - rewrite String.eqb_eq. split; congruence.
  - rewrite andb_true_iff, String.eqb_eq, ty_eqb_iff. split; [intros []; congruence|]. intros [= -> ->]. auto.
Qed.
Lemma vmem_iff x l : vmem x l = true <-> In x l.
Proof.
  unfold vmem. rewrite existsb_exists. split.
  - intros (y & H & E). apply ventry_eqb_iff in E. now subst.
  - intro H. exists x. split; auto. now apply ventry_eqb_iff.
Qed.
Lemma counts_keys_in x l : In x (counts_keys l) <-> In x l.
Proof.
  induction l as [|y l IH]; cbn [counts_keys fold_right]; [tauto|]. fold (counts_keys l).
  destruct (vmem y (counts_keys l)) eqn:E.
  - apply vmem_iff in E. rewrite IH. cbn. split; auto. intros [->|]; auto. now apply IH.
  - cbn. rewrite IH. tauto.
Qed.
Lemma counter_pos x l : counter l x > 0 -> In x l.
Proof.
  unfold counter. intro H. destruct (filter (ventry_eqb x) l) as [|y f] eqn:E; cbn in H; [lia|].
  assert (In y (filter (ventry_eqb x) l)) as G by (rewrite E; cbn; auto). apply filter_In in G.
  destruct G as [G1 G2]. apply ventry_eqb_iff in G2. now subst.
Qed.
Definition occ_key (ig : bool) (n : string) (c : ty) : option ty := if ig then None else Some c.
Definition vkey (ig : bool) (n : string) (c : ty) : ventry := if ig then VWord n else VTyped n c.
Lemma no_word_occ n c b : no_word b -> ~ is_occurrence n c b.
Proof. induction b; cbn; tauto. Qed.
Lemma occurs_counter n c ig bs : All (plain_word ig) bs ->
  occurs n (occ_key ig n c) bs (counter (map (key ig) (filter is_word bs)) (vkey ig n c)).
Proof.
  unfold counter. induction bs as [|b bs IH]; cbn [filter map]; [constructor|]. intros [P Ps]. specialize (IH Ps).
  destruct (is_word b) eqn:W.
  - destruct b; try discriminate. cbn [filter map]. cbn in P.
    destruct (ventry_eqb (vkey ig n c) (key ig (Word name wcod z))) eqn:E.
    + cbn [List.length]. apply occurs_yes; auto. apply ventry_eqb_iff in E.
      destruct ig; cbn in *; injection E; intros; subst; split; auto; destruct P as [->|]; auto; try discriminate; apply rot_0.
    + apply occurs_no; auto. intro H. assert (ventry_eqb (vkey ig n c) (key ig (Word name wcod z)) = true); [|congruence].
      apply ventry_eqb_iff. destruct ig; cbn in *; destruct H; subst; auto. destruct P as [->|]; [|discriminate].
      cbn [Z.opp]. now rewrite rot_0.
  - apply occurs_no; auto. destruct b; cbn in *; auto; try discriminate. now apply no_word_occ.
Qed.
Lemma occurs_fun n c bs k k' : occurs n c bs k -> occurs n c bs k' -> k = k'.
Proof.
  intro H. revert k'. induction H; intros k' H'; inversion H'; subst; auto; try contradiction.
Qed.

Section U.
  Variables (ds : list diagram) (min_freq : Z) (unk : string) (ig : bool).
  Definition unknown (n : string) (c : ty) : Prop :=
    exists k, occurs n (occ_key ig n c) (flat_map d_boxes ds) k /\ (Z.of_nat k < min_freq)%Z.
  Hypothesis Hp : All (plain_word ig) (flat_map d_boxes ds).
  Hypothesis Hm : (1 <= min_freq)%Z.
  Notation R := (from_diagrams ds min_freq unk ig).
  Lemma voc_in x : In x (filter (fun x => (min_freq <=? Z.of_nat (counter (occurrences ds ig) x))%Z) (counts_keys (occurrences ds ig)))
    <-> (min_freq <= Z.of_nat (counter (occurrences ds ig) x))%Z.
  Proof.
    rewrite filter_In, counts_keys_in, Z.leb_le. split; [tauto|]. intro H. split; auto. apply counter_pos. lia.
  Qed.
  Lemma occ_shape x : In x (occurrences ds ig) -> if ig then exists n, x = VWord n else exists n c, x = VTyped n c.
  Proof.
    unfold occurrences. rewrite in_map_iff. intros (b & <- & _). unfold key. destruct ig; eauto.
  Qed.
  Lemma matches_unknown n c : rule_matches R (Word n c 0) = true <-> unknown n c.
  Proof.
    cbn [rule_matches from_diagrams]. unfold unknown_matches. cbn [is_word b_name b_cod b_end andb].
    rewrite andb_true_iff, !negb_true_iff.
    assert (E : forall x, vmem x (filter (fun x => (min_freq <=? Z.of_nat (counter (occurrences ds ig) x))%Z) (counts_keys (occurrences ds ig))) = false
                <-> (Z.of_nat (counter (occurrences ds ig) x) < min_freq)%Z).
    { intro x. rewrite <- not_true_iff_false, vmem_iff, voc_in. lia. }
    rewrite !E. clear E.
    assert (O : forall k, occurs n (occ_key ig n c) (flat_map d_boxes ds) k <-> k = counter (occurrences ds ig) (vkey ig n c)).
    { intro k. split.
      - intro H. eapply occurs_fun; eauto. now apply occurs_counter.
      - intros ->. now apply occurs_counter. }
    assert (Z0 : forall x, (~ In x (occurrences ds ig)) -> counter (occurrences ds ig) x = 0).
    { intros x Hx. destruct (counter (occurrences ds ig) x) eqn:E; auto. destruct Hx. apply counter_pos. lia. }
    unfold unknown. split.
    - intros [H1 H2]. eexists. split; [apply O; reflexivity|]. destruct ig; cbn [vkey]; auto.
    - intros (k & Hk & Hlt). apply O in Hk. subst k. pose proof (fun x => @occ_shape x) as Sh. destruct ig; cbn [vkey] in *; split; auto.
      + rewrite Z0; [lia|]. intro H. apply Sh in H. destruct H. discriminate.
      + rewrite Z0; [lia|]. intro H. apply Sh in H. destruct H as (? & ? & ?). discriminate.
  Qed.
  Lemma not_word_matches b : is_word b = false -> rule_matches R b = false.
  Proof. cbn [rule_matches from_diagrams]. unfold unknown_matches. now intros ->. Qed.

  Notation G := (F_box id_ob (rw_ar [R])).
  Lemma rw_word n c z : exists b', G (Word n c z) = Ok (to_diag b') /\ replaced unknown unk (Word n c z) b' /\ (exists n', b' = Word n' c z).
  Proof.
    set (b := Word n c z).
    assert (U : b_unwind b = Word n (rot (-z) c) 0). { unfold b, b_unwind. cbn. f_equal. lia. }
    set (n' := if rule_matches R (b_unwind b) then unk else n).
    assert (E : rw_ar [R] (b_unwind b) = Ok (to_diag (Word n' (rot (-z) c) 0))).
    { cbn [rw_ar]. unfold n'. rewrite U. destruct (rule_matches R (Word n (rot (- z) c) 0)); reflexivity. }
    exists (Word n' c z). split; [|split; [|eauto]].
    - rewrite (@F_box_unwind id_ob (rw_ar [R]) iob Hid b (to_diag (Word n' (rot (-z) c) 0))); auto.
      + cbn [b_z b b_end]. rewrite d_rotate_to_diag. cbn [b_rotate]. rewrite rot_add, Z.add_opp_diag_r, rot_0. reflexivity.
      + exact I.
      + exact I.
      + apply respects_id. exists (to_diag (Word n' (rot (-z) c) 0)). split; auto. rewrite U. now apply typed_to_diag.
      + cbn. auto.
    - unfold n'. rewrite U. destruct (rule_matches R (Word n (rot (- z) c) 0)) eqn:M.
      + apply rep_yes. now apply matches_unknown.
      + apply rep_no. intro H. apply matches_unknown in H. congruence.
  Qed.
  Lemma rw_plain b : basic b -> is_word b = false -> (b_z b = 0%Z \/ (match b with Box _ _ _ _ => True | _ => False end)) ->
    box_ok b -> G b = Ok (to_diag b).
  Proof.
    intros B W Hz Ho. destruct (Z.eqb_spec (b_z b) 0) as [E|E].
    - rewrite F_box_basic0 by auto. cbn [rw_ar]. rewrite not_word_matches by auto.
      rewrite (@F_check_ok id_ob iob Hid); rewrite ?Fo_id; auto.
    - destruct Hz as [Hz|Hz]; [contradiction|]. destruct b; try contradiction. set (b := Box name bdom bcod z) in *.
      assert (U : b_unwind b = Box name (rot (-z) bdom) (rot (-z) bcod) 0). { unfold b, b_unwind. cbn. f_equal. lia. }
      assert (E' : rw_ar [R] (b_unwind b) = Ok (to_diag (b_unwind b))).
      { cbn [rw_ar]. rewrite not_word_matches; auto. }
      rewrite (@F_box_unwind id_ob (rw_ar [R]) iob Hid b (to_diag (b_unwind b))); auto.
      + unfold b_unwind. rewrite d_rotate_to_diag. rewrite b_rotate_add by exact I. rewrite Z.add_opp_diag_r. now rewrite b_rotate_0.
      + apply respects_id. eexists; split; eauto. apply typed_box. now rewrite U.
      + cbn. auto.
  Qed.
  Lemma Fa_iob a : Fa iob a = [a]. Proof. apply Fa_id. Qed.
  Lemma rw_box b : box_ok b -> flat_box b -> exists b', G b = Ok (to_diag b') /\ replaced unknown unk b b' /\ b_dom b' = b_dom b /\ b_cod b' = b_cod b.
  Proof.
    intros Ho Hf. destruct b; cbn [flat_box] in Hf.
    - exists (Box name bdom bcod z). split; [apply rw_plain; auto; exact I|]. split; auto. now apply rep_other.
    - destruct (rw_word name wcod z) as (b' & E & Rp & n' & ->). exists (Word n' wcod z). auto.
    - exists (Cap l r rv). split; [|split; [now apply rep_other|auto]]. apply (@F_cap id_ob (rw_ar [R]) iob Hid); auto using Fa_iob.
    - exists (Cup l r rv). split; [|split; [now apply rep_other|auto]]. apply (@F_cup id_ob (rw_ar [R]) iob Hid); auto using Fa_iob.
    - exists (Swap l r). split; [|split; [now apply rep_other|auto]]. apply (@F_swap id_ob (rw_ar [R]) iob Hid); auto using Fa_iob.
    - exists (Spider t n m). split; [|split; [now apply rep_other|auto]]. apply (@F_spider id_ob (rw_ar [R]) iob Hid); auto using Fa_iob.
    - destruct b; try contradiction.
      + exists (Dagg (Box name bdom bcod z)). split; [|split; auto].
        * rewrite (@F_dagg id_ob (rw_ar [R]) iob Hid (Box name bdom bcod z) (to_diag (Box name bdom bcod z))).
          -- now rewrite d_dagger_to_diag.
          -- rewrite !Fo_id. now apply typed_box.
          -- apply rw_plain; auto; exact I.
        * apply rep_dagg. now apply rep_other.
      + destruct (rw_word name wcod z) as (b' & E & Rp & n' & ->). exists (Dagg (Word n' wcod z)). split; [|split; auto].
        * rewrite (@F_dagg id_ob (rw_ar [R]) iob Hid (Word name wcod z) (to_diag (Word n' wcod z))); auto.
          rewrite !Fo_id. now apply typed_to_diag.
        * now apply rep_dagg.
    - exists (Frame name fdom fcod comps z). split; [apply rw_plain; auto; exact I|]. split; auto. now apply rep_other.
    - exists (DagFrame name fdom fcod comps z). split; [apply rw_plain; auto; exact I|]. split; auto. now apply rep_other.
  Qed.
  Lemma rw_diag d : wf d -> All (fun x => flat_box (l_box x)) (layers d) ->
    exists d', rewrite [R] d = Ok d' /\ wf d' /\ replaced_diagram unknown unk d d'.
  Proof.
    intros [W1 W2] Hf.
    assert (X : exists ls', mapM (@F_layer id_ob (rw_ar [R]) iob) (layers d) = Ok (map (fun x => [x]) ls') /\
       Forall2 (fun x y : layer => fst (fst y) = fst (fst x) /\ snd y = snd x /\ replaced unknown unk (l_box x) (l_box y)) (layers d) ls').
    { clear W1. induction (layers d) as [|x ls IH]; cbn [All mapM] in *.
      - exists []. auto.
      - destruct W2 as [O W2], Hf as [F Hf]. destruct IH as (ls' & E & H2); auto.
        destruct x as [[l b] r]. cbn [l_box F_layer] in *. destruct (rw_box O F) as (b' & Eb & Rb & _). rewrite Eb. cbn [rmap bind].
        rewrite E. cbn [rmap bind]. exists ((l, b', r) :: ls'). split.
        + cbn. rewrite !app_nil_r, !Fo_id. reflexivity.
        + constructor; auto. }
    destruct X as (ls' & E & H2). 
    assert (ED : rewrite [R] d = Ok (Diag (dom d) (cod d) ls')).
    { unfold rewrite. rewrite (@F_diag_eq id_ob (rw_ar [R]) iob Hid d) by auto. rewrite E. cbn. rewrite !Fo_id.
      f_equal. f_equal. clear. induction ls'; cbn; auto. now f_equal. }
    eexists. split; [exact ED|]. split; [|repeat split; auto].
    destruct (@rewrite_typed [R] d) as (e & Ee & T & _); [split; auto|repeat constructor| |congruence].
    apply All_in. intros x _. apply All_in. intros y _ r [<-|[]] _ []. 
  Qed.
End U.
Lemma Forall2_weaken A B (P Q : A -> B -> Prop) l l' : (forall x y, P x y -> Q x y) -> Forall2 P l l' -> Forall2 Q l l'.
Proof. intros H F. induction F; constructor; auto. Qed.
Lemma boxes_flat ds : flat_map d_boxes ds = map l_box (flat_map layers ds).
Proof. induction ds as [|d ds IH]; cbn; auto. rewrite map_app, IH. reflexivity. Qed.
Lemma replaced_impl (p q : string -> ty -> Prop) unk b b' : (forall n c, p n c <-> q n c) -> replaced p unk b b' -> replaced q unk b b'.
Proof.
  intros H R. induction R; [apply rep_yes; now apply H|apply rep_no; intro; apply H0; now apply H|now apply rep_dagg|now apply rep_other].
Qed.
Lemma unknown_words ds min_freq unk ig d : (1 <= min_freq)%Z ->
  All (fun x => plain_word ig (l_box x)) (flat_map layers ds) -> wf d -> All (fun x => flat_box (l_box x)) (layers d) ->
  exists d', rewrite [from_diagrams ds min_freq unk ig] d = Ok d' /\ wf d' /\ replaced_diagram (rarely_occurs ds min_freq ig) unk d d'.
Proof.
  intros Hm Hp W Hf.
  assert (Hp' : All (plain_word ig) (flat_map d_boxes ds)).
  { rewrite boxes_flat. clear -Hp. induction (flat_map layers ds); cbn in *; tauto. }
  destruct (@rw_diag ds min_freq unk ig Hp' Hm d W Hf) as (d' & E & W' & D1 & D2 & D3).
  exists d'. split; [exact E|]. split; [exact W'|]. split; [exact D1|]. split; [exact D2|].
  eapply Forall2_weaken; [|exact D3]. intros x y (H1 & H2 & H3). split; [exact H1|]. split; [exact H2|].
  eapply replaced_impl; [|exact H3]. intros n c. unfold unknown, rarely_occurs. rewrite boxes_flat. reflexivity.
Qed.
