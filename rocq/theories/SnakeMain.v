(** Snake removal: yanking, the main loop, normal form (lemmas only). *)
From Verif Require Import PyBase PyFacts TyModel TyFacts DiagModel DiagSpec DiagFacts DiagPerm DiagMisc
  Cat CatFacts BoxEq SnakeModel SnakeFacts SnakeSpec SnakeYank.
Set Implicit Arguments. Unset Strict Implicit.

Definition leqvr (d : ty) (ls ks : list layer) (c : ty) : Prop :=
  chain d ls c /\ boxes_ok ls /\ chain d ks c /\ boxes_ok ks /\
  forall (C : smc) (I : interp C), rigid I -> heq C (den_layers I c ls) (den_layers I c ks).
Lemma leqvr_ctx d pre m ls ks m' post c : chain d pre m -> leqvr m ls ks m' -> chain m' post c ->
  boxes_ok pre -> boxes_ok post -> leqvr d (pre ++ ls ++ post) (pre ++ ks ++ post) c.
Proof.
  intros P (A & B & A' & B' & E) Q BP BQ. repeat split.
  - eapply chain_app_i; [eauto|eapply chain_app_i; eauto].
  - rewrite !All_app; auto.
  - eapply chain_app_i; [eauto|eapply chain_app_i; eauto].
  - rewrite !All_app; auto.
  - intros C I R.
    rewrite (@den_layers_app C I pre (ls ++ post) d m c), (@den_layers_app C I pre (ks ++ post) d m c);
      eauto using chain_app_i; try (rewrite All_app; auto).
    apply cmp_heq; [reflexivity|].
    rewrite (@den_layers_app C I ls post m m' c), (@den_layers_app C I ks post m m' c); auto.
    apply cmp_heq; [apply E; auto|reflexivity].
Qed.
Definition deqvr (d e : diagram) : Prop :=
  dom e = dom d /\ cod e = cod d /\ leqvr (dom d) (layers d) (layers e) (cod d).
Lemma deqv_deqvr d e : deqv d e -> deqvr d e.
Proof. intros (A & B & C1 & C2 & C3 & C4 & C5). unfold deqvr, leqvr. repeat split; auto. Qed.
Lemma deqvr_wf d e : deqvr d e -> wf e.
Proof. intros (D & C & H). unfold wf. rewrite D, C. split; apply H. Qed.
Lemma deqvr_refl d : wf d -> deqvr d d.
Proof. intro. now apply deqv_deqvr, deqv_refl. Qed.
Lemma deqvr_trans d e f : deqvr d e -> deqvr e f -> deqvr d f.
Proof.
  intros (A & B & C1 & C2 & C3 & C4 & C5) (A' & B' & D1 & D2 & D3 & D4 & D5). unfold deqvr, leqvr. rewrite A, B in *. repeat split; auto.
  intros. etransitivity; [apply C5|apply D5]; auto.
Qed.
Lemma deqvr_den d e C (I : interp C) : deqvr d e -> rigid I -> heq C (den I d) (den I e).
Proof. intros (A & B & H). unfold den. rewrite B. apply H. Qed.

Lemma yank_left_layers (l r : ty) (x a b : atom) rv : box_ok (Cap a b rv) -> box_ok (Cup x a rv) ->
  x = b /\ leqvr (l ++ [x] ++ r) [(l ++ [x], Cap a b rv, r); (l, Cup x a rv, b :: r)] [] (l ++ [x] ++ r).
Proof.
  intros O O'. cbn in O, O'.
  assert (E : x = b).
  { subst a. destruct rv; rewrite O', rot_atom_add; apply rot_atom_0. }
  split; [exact E|]. unfold leqvr. split; [|split; [|split; [|split]]].
  - cbn. rewrite <- !app_assoc. cbn. clear O O'. subst x. auto.
  - cbn. auto.
  - cbn. auto.
  - cbn. auto.
  - intros C I R. clear O'. subst x.
    destruct (R rv b) as [R1 _]. replace (adj_of rv b) with a in R1 by (unfold adj_of; auto).
    cbn [den_layers den_layer].
    assert (OC : box_ok (Cap a b rv)) by exact O.
    assert (OU : box_ok (Cup b a rv)).
    { cbn. subst a. destruct rv; rewrite rot_atom_add; symmetry; apply rot_atom_0. }
    rewrite (cmp_idm_r C (tns C _ (tns C (ari I (Cup b a rv)) _))).
    2:{ rewrite !tgt_tns, !tgt_idm, ari_tgt by auto. rewrite !obt_app. cbn. rewrite ?ot_assoc, ?ot_unit_l. reflexivity. }
    rewrite obt_app, <- tns_idm.
    change (b :: r) with ([b] ++ r). rewrite obt_app, <- (tns_idm C (obt C (obi I) [b])).
    rewrite !obt_single.
    rewrite tns_assoc.
    rewrite (interchange_law C (idm C (obt C (obi I) l))).
    2:{ now rewrite tgt_idm, src_idm. }
    2:{ rewrite !tgt_tns, !src_tns, !tgt_idm, !src_idm, ari_tgt, ari_src by auto. cbn. rewrite !ot_unit_r, !ot_assoc. reflexivity. }
    rewrite <- !(tns_assoc C _ _ (idm C (obt C (obi I) r))).
    rewrite (interchange_law C (tns C (idm C (obi I b)) (ari I (Cap a b rv)))).
    2:{ rewrite !tgt_tns, !src_tns, !tgt_idm, !src_idm, ari_tgt, ari_src by auto. cbn. rewrite !ot_unit_r, !ot_assoc. reflexivity. }
    2:{ now rewrite tgt_idm, src_idm. }
    rewrite R1. rewrite !cmp_idm_l by (now rewrite src_idm).
    rewrite !tns_idm. cbn [obt]. rewrite !obt_app. cbn. rewrite ot_unit_r. reflexivity.
Qed.

Lemma yank_right_layers (l r : ty) (x a b : atom) rv : box_ok (Cap a b rv) -> box_ok (Cup b x rv) ->
  x = a /\ leqvr (l ++ [x] ++ r) [(l, Cap a b rv, x :: r); (l ++ [a], Cup b x rv, r)] [] (l ++ [x] ++ r).
Proof.
  intros O O'. cbn in O, O'.
  assert (E : x = a).
  { subst b a. destruct rv; rewrite rot_atom_add; symmetry; apply rot_atom_0. }
  split; [exact E|]. unfold leqvr. split; [|split; [|split; [|split]]].
  - cbn. rewrite <- !app_assoc. cbn. clear O O'. subst x. auto.
  - cbn. auto.
  - cbn. auto.
  - cbn. auto.
  - intros C I R. assert (OU : box_ok (Cup b x rv)) by exact O'. clear O'. subst x.
    destruct (R rv b) as [_ R1]. replace (adj_of rv b) with a in R1 by (unfold adj_of; auto).
    cbn [den_layers den_layer].
    assert (OC : box_ok (Cap a b rv)) by exact O.
    rewrite (cmp_idm_r C (tns C _ (tns C (ari I (Cup b a rv)) _))).
    2:{ rewrite !tgt_tns, !tgt_idm, ari_tgt by auto. rewrite !obt_app. cbn. rewrite ?ot_assoc, ?ot_unit_l. reflexivity. }
    rewrite (obt_app I l [a]), <- (tns_idm C (obt C (obi I) l) (obt C (obi I) [a])).
    change (a :: r) with ([a] ++ r). rewrite obt_app, <- (tns_idm C (obt C (obi I) [a]) (obt C (obi I) r)).
    rewrite !obt_single.
    rewrite !tns_assoc.
    rewrite (interchange_law C (idm C (obt C (obi I) l))).
    2:{ now rewrite tgt_idm, src_idm. }
    2:{ rewrite !tgt_tns, !src_tns, !tgt_idm, !src_idm, ari_tgt, ari_src by auto. cbn. rewrite !ot_unit_r, !ot_assoc. reflexivity. }
    rewrite <- !(tns_assoc C _ _ (idm C (obt C (obi I) r))).
    rewrite (interchange_law C (tns C (ari I (Cap a b rv)) (idm C (obi I a)))).
    2:{ rewrite !tgt_tns, !src_tns, !tgt_idm, !src_idm, ari_tgt, ari_src by auto. cbn. rewrite !ot_unit_r, !ot_assoc. reflexivity. }
    2:{ now rewrite tgt_idm, src_idm. }
    rewrite R1. rewrite !cmp_idm_l by (now rewrite src_idm).
    rewrite !tns_idm, !obt_app. cbn. rewrite ot_unit_r. reflexivity.
Qed.

(** ** find_snake *)
Lemma try_leg_some ls A cap0 tl left_snake wire s : ls = A ++ cap0 :: tl ->
  try_leg ls (List.length A) left_snake wire = Some s ->
  exists M cup B j', ls = A ++ cap0 :: map snd M ++ cup :: B /\
    s = (List.length A + 1 + List.length M, List.length A,
         (pos true (List.length A + 1) M, pos false (List.length A + 1) M), left_snake) /\
    fstrand wire M j' /\ (exists l r v, l_box cup = Cup l r v) /\
    (if left_snake then off cup + 1 = j' else off cup = j').
Proof.
  intros L. unfold try_leg, follow_wire.
  assert (Sk : skipn (S (List.length A)) ls = tl).
  { rewrite L. change (A ++ cap0 :: tl) with (A ++ [cap0] ++ tl). rewrite app_assoc.
    replace (S (List.length A)) with (List.length (A ++ [cap0])) by (rewrite app_length; cbn; lia).
    rewrite skipn_app, Nat.sub_diag, skipn_all, skipn_O. reflexivity. }
  rewrite Sk. destruct (follow_from_spec tl (List.length A) wire [] []) as (M & rest & j' & E & R & F & Z).
  rewrite E. cbn [app]. rewrite Nat.add_succ_l.
  assert (N : nth_error ls (S (List.length A + List.length M)) = nth_error rest 0).
  { rewrite L, nth_error_app2 by lia. replace (S (List.length A + List.length M) - List.length A) with (S (List.length M)) by lia.
    cbn. rewrite R, nth_error_app2 by (rewrite map_length; lia). now rewrite map_length, Nat.sub_diag. }
  rewrite N. destruct rest as [|y rest]; [discriminate|]. cbn [nth_error].
  destruct (is_cup (l_box y)) eqn:U; [|discriminate]. cbn [negb orb].
  destruct (orb _ _) eqn:D; [discriminate|]. intros [= <-].
  apply orb_false_iff in D. destruct D as [D1 D2].
  exists M, y, rest, j'. rewrite L, R. conjs; auto.
  - repeat f_equal; lia.
  - destruct (l_box y); try discriminate; eauto.
  - destruct left_snake; cbn in *.
    + apply negb_false_iff, Nat.eqb_eq in D1. auto.
    + apply negb_false_iff, Nat.eqb_eq in D2. auto.
Qed.

Lemma try_leg_none ls A cap0 M cup B (left_snake : bool) wire j' : ls = A ++ cap0 :: M ++ cup :: B ->
  strand wire M j' -> (exists l r v, l_box cup = Cup l r v) ->
  (if left_snake then off cup + 1 = j' else off cup = j') ->
  try_leg ls (List.length A) left_snake wire <> None.
Proof.
  intros L S (l & r & v & U) H. unfold try_leg, follow_wire.
  assert (Sk : skipn (Datatypes.S (List.length A)) ls = M ++ cup :: B).
  { rewrite L. change (A ++ cap0 :: M ++ cup :: B) with (A ++ [cap0] ++ (M ++ cup :: B)). rewrite app_assoc.
    replace (Datatypes.S (List.length A)) with (List.length (A ++ [cap0])) by (rewrite app_length; cbn; lia).
    rewrite skipn_app, Nat.sub_diag, skipn_all, skipn_O. reflexivity. }
  rewrite Sk.
  assert (E : forall i lo ro, exists o : list nat * list nat, follow_from (M ++ cup :: B) i wire lo ro = (Datatypes.S i + List.length M, j', o)).
  { assert (Nc : ndom cup = 2) by (unfold ndom; now rewrite U). clear - S H Nc.
    induction S as [j|j x ls j' G S IH|j x ls j' G S IH]; intros i lo ro; cbn [app follow_from].
    - replace ((off cup <=? j) && (j <? off cup + ndom cup)) with true.
      + exists (lo, ro). f_equal. f_equal. cbn. lia.
      + symmetry. rewrite andb_true_iff, Nat.leb_le, Nat.ltb_lt. destruct left_snake; lia.
    - unfold pos_of, wires_in, wires_out in *. fold (off x) (ndom x) (ncod x) in *.
      replace ((off x <=? j) && (j <? off x + ndom x)) with false.
      + destruct (Nat.leb_spec (off x) j); [|lia]. destruct (IH H (Datatypes.S i) (lo ++ [Datatypes.S i]) ro) as (o & ->).
        exists o. f_equal. f_equal. cbn. lia.
      + symmetry. apply andb_false_iff. right. apply Nat.ltb_ge. lia.
    - unfold pos_of in G. fold (off x) in G. destruct (Nat.leb_spec (off x) j); [lia|]. cbn [andb].
      destruct (IH H (Datatypes.S i) lo (ro ++ [Datatypes.S i])) as (o & ->). exists o. f_equal. f_equal. cbn. lia. }
  destruct (E (List.length A) [] []) as (o & ->).
  assert (N : nth_error ls (Datatypes.S (List.length A) + List.length M) = Some cup).
  { rewrite L, nth_error_app2 by lia. replace (_ - _) with (Datatypes.S (List.length M)) by lia. cbn.
    rewrite nth_error_app2 by lia. now rewrite Nat.sub_diag. }
  rewrite N, U. cbn. destruct left_snake; cbn.
  - rewrite H, Nat.eqb_refl. discriminate.
  - rewrite H, Nat.eqb_refl. discriminate.
Qed.

Lemma first_some_some A B (f : A -> option B) l b : first_some f l = Some b -> exists a, In a l /\ f a = Some b.
Proof.
  induction l as [|a l IH]; cbn; [discriminate|]. destruct (f a) eqn:E.
  - intros [= <-]. eauto.
  - intro H. destruct (IH H) as (a' & I & E'). eauto.
Qed.
Lemma first_some_none A B (f : A -> option B) l : first_some f l = None -> forall a, In a l -> f a = None.
Proof.
  induction l as [|a l IH]; cbn; [tauto|]. destruct (f a) eqn:E; [discriminate|]. intros H a' [<-|I]; auto.
Qed.

Lemma find_snake_some d s : find_snake d = Some s ->
  exists A cap M cup B j' left_snake, layers d = A ++ cap :: map snd M ++ cup :: B /\
    s = (List.length A + 1 + List.length M, List.length A,
         (pos true (List.length A + 1) M, pos false (List.length A + 1) M), left_snake) /\
    (exists l r v, l_box cap = Cap l r v) /\ (exists l r v, l_box cup = Cup l r v) /\
    fstrand (if left_snake then off cap else off cap + 1) M j' /\
    (if left_snake then off cup + 1 = j' else off cup = j').
Proof.
  intro H. apply first_some_some in H. destruct H as (i & I & H). apply in_seq in I.
  unfold try_cap in H. destruct (nth_error (layers d) i) as [x|] eqn:N; [|discriminate].
  destruct (nth_error_split _ _ N) as (A & tl & L & <-).
  destruct (is_cap (l_box x)) eqn:C; [|discriminate].
  assert (CC : exists l r v, l_box x = Cap l r v) by (destruct (l_box x); try discriminate; eauto).
  destruct (try_leg _ _ true _) eqn:T.
  - injection H as ->. destruct (try_leg_some L T) as (M & cup & B & j' & L' & E & F & U & O).
    exists A, x, M, cup, B, j', true. conjs; auto.
  - destruct (try_leg_some L H) as (M & cup & B & j' & L' & E & F & U & O).
    exists A, x, M, cup, B, j', false. conjs; auto.
Qed.

Lemma find_snake_none d : find_snake d = None <-> ~ has_snake d.
Proof.
  split.
  - intros H (A & cap & M & cup & B & L & (l & r & v & C) & U & S).
    assert (X : try_cap (layers d) (List.length A) = None).
    { apply (first_some_none H). apply in_seq. rewrite L, app_length. cbn. lia. }
    unfold try_cap in X. rewrite L in X at 1. rewrite nth_error_app2, Nat.sub_diag in X by lia. cbn [nth_error] in X.
    rewrite C in X. cbn [is_cap] in X.
    destruct S as [S|S].
    + destruct (try_leg (layers d) (List.length A) true (off cap)) eqn:T; [discriminate|].
      eapply (@try_leg_none (layers d) A cap M cup B true); eauto.
    + destruct (try_leg (layers d) (List.length A) true (off cap)) eqn:T; [discriminate|].
      eapply (@try_leg_none (layers d) A cap M cup B false (off cap + 1)); eauto.
  - intro H. destruct (find_snake d) as [s|] eqn:E; auto. exfalso. apply H.
    destruct (find_snake_some E) as (A & cap & M & cup & B & j' & ls & L & _ & C & U & F & O).
    exists A, cap, (map snd M), cup, B. unfold snake_at. conjs; auto.
    destruct ls; [left|right]; apply fstrand_strand in F; [unfold pos_of; fold (off cap) (off cup)|unfold pos_of; fold (off cap) (off cup)]; congruence.
Qed.

(** ** unsnake *)
Lemma cut_mid (A B : list layer) x y : 
  firstn (List.length A) (A ++ x :: y :: B) ++ skipn (List.length A + 1 + 1) (A ++ x :: y :: B) = A ++ B.
Proof.
  rewrite firstn_app, Nat.sub_diag, firstn_O, app_nil_r, firstn_all. f_equal.
  change (A ++ x :: y :: B) with (A ++ [x; y] ++ B). rewrite app_assoc.
  replace (List.length A + 1 + 1) with (List.length (A ++ [x; y])) by (rewrite app_length; cbn; lia).
  rewrite skipn_app, Nat.sub_diag, skipn_all, skipn_O. reflexivity.
Qed.

Lemma yank_diag d A cap cup B l r v l' r' v' : wf d -> layers d = A ++ cap :: cup :: B ->
  l_box cap = Cap l r v -> l_box cup = Cup l' r' v' ->
  off cap = off cup + 1 \/ off cap + 1 = off cup -> no_mixed [Cap l r v; Cup l' r' v'] ->
  deqvr d (mk d (A ++ B)).
Proof.
  intros [H Bo] L Ec Eu O NM. rewrite L in H, Bo. 
  change (A ++ cap :: cup :: B) with (A ++ [cap; cup] ++ B) in *.
  apply chain_app in H. destruct H as (m & H1 & H2). apply chain_app in H2. destruct H2 as (m' & H2 & H3).
  rewrite !All_app in Bo. destruct Bo as (B1 & B2 & B3). cbn [chain All] in H2, B2.
  destruct H2 as (-> & Ed & <-), B2 as (C0 & C1 & _).
  destruct cap as [[cl cb] cr], cup as [[ul ub] ur]. unfold off in O. cbn [l_box l_left l_dom l_cod] in *. subst cb ub.
  cbn in Ed. unfold deqvr. split; [reflexivity|]. split; [reflexivity|].
  cbn [mk layers]. rewrite L. change (A ++ B) with (A ++ [] ++ B).
  assert (NN : v <> v' -> l <> r' /\ r <> l') by (intro; apply (NM l r v l' r' v'); cbn; auto).
  destruct O as [O|O].
  - (* left snake *)
    assert (X : exists x, cl = ul ++ [x]).
    { exists (last cl l). 
      assert (E : firstn (List.length ul) (cl ++ l :: r :: cr) = ul).
      { rewrite Ed, firstn_app, Nat.sub_diag, firstn_O, app_nil_r. apply firstn_all. }
      rewrite firstn_app in E. replace (List.length ul - List.length cl) with 0 in E by lia. rewrite firstn_O, app_nil_r in E.
      destruct (@exists_last _ cl) as (c' & z & ->); [intros ->; cbn in O; lia|].
      rewrite last_last. rewrite app_length in O. cbn in O. 
      rewrite firstn_app in E. replace (List.length ul - List.length c') with 0 in E by lia. rewrite firstn_O, app_nil_r in E.
      rewrite firstn_all2 in E by lia. congruence. }
    destruct X as (x & ->). rewrite <- app_assoc in Ed. apply app_inv_head in Ed. cbn in Ed. injection Ed as <- <- <-.
    assert (v' = v) by (destruct (bool_dec v v') as [->|N]; auto; destruct (NN N); congruence). subst v'.
    destruct (@yank_left_layers ul cr x l r v C0 C1) as [E Q].
    eapply leqvr_ctx; [exact H1| |exact H3|auto|auto].
    cbn. rewrite <- app_assoc. subst r. exact Q.
  - assert (X : ul = cl ++ [l]).
    { assert (E : firstn (List.length ul) (cl ++ l :: r :: cr) = ul).
      { rewrite Ed, firstn_app, Nat.sub_diag, firstn_O, app_nil_r. apply firstn_all. }
      rewrite <- E, firstn_app. replace (List.length ul - List.length cl) with 1 by lia.
      rewrite firstn_all2 by lia. reflexivity. }
    rewrite X, <- app_assoc in Ed. apply app_inv_head in Ed. cbn in Ed. injection Ed as <- ->.
    assert (v' = v) by (destruct (bool_dec v v') as [->|N]; auto; destruct (NN N); congruence). subst v' ul.
    destruct (@yank_right_layers cl ur r' l r v C0 C1) as [E Q].
    eapply leqvr_ctx; [exact H1| |exact H3|auto|auto].
    cbn. rewrite <- app_assoc. cbn. subst r'. exact Q.
Qed.

Lemma unsnake_ok d s : wf d -> find_snake d = Some s ->
  exists d' bc bu, unsnake d s = Ok d' /\ dom d' = dom d /\ cod d' = cod d /\
    is_cap bc = true /\ is_cup bu = true /\
    Permutation (boxes d) (bc :: bu :: boxes d') /\
    (no_mixed (boxes d) -> deqvr d d').
Proof.
  intros W F. destruct (find_snake_some F) as (A & cap & M & cup & B & j' & ls & L & -> & (l & r & v & C) & (l' & r' & v' & U) & St & O).
  assert (NM0 : no_mixed (boxes d) -> no_mixed [Cap l r v; Cup l' r' v']).
  { intros N a b c a' b' c' [H|[H|[]]] [H'|[H'|[]]]; try discriminate. injection H as <- <- <-. injection H' as <- <- <-.
    apply N; unfold boxes; rewrite L, !map_app; cbn [map]; rewrite C, map_app; cbn [map]; rewrite U;
      rewrite !in_app_iff; cbn; rewrite ?in_app_iff; cbn; auto. }
  assert (FIN : forall d1 A1 cap1 cup1 B1, deqv d d1 -> layers d1 = A1 ++ cap1 :: cup1 :: B1 ->
     l_box cap1 = Cap l r v -> l_box cup1 = Cup l' r' v' -> (off cap1 = off cup1 + 1 \/ off cap1 + 1 = off cup1) ->
     Permutation (boxes d) (boxes d1) ->
     exists d' bc bu,
       Ok (Diag (dom d1) (cod d1) (firstn (List.length A1) (layers d1) ++ skipn (List.length A1 + 1 + 1) (layers d1))) = Ok d' /\
       dom d' = dom d /\ cod d' = cod d /\ is_cap bc = true /\ is_cup bu = true /\
       Permutation (boxes d) (bc :: bu :: boxes d') /\ (no_mixed (boxes d) -> deqvr d d')).
  { intros d1 A1 cap1 cup1 B1 Q L1 C1 U1 O1 P. rewrite L1, cut_mid. eexists; exists (Cap l r v), (Cup l' r' v'). conjs; [reflexivity|..].
    - apply Q.
    - apply Q.
    - reflexivity.
    - reflexivity.
    - rewrite P. unfold boxes. cbn [layers]. rewrite L1, !map_app. cbn [map]. rewrite C1, U1.
      symmetry. apply (Permutation_app_swap_app [Cap l r v; Cup l' r' v']).
    - intro N. eapply deqvr_trans; [apply deqv_deqvr, Q|].
      eapply yank_diag; eauto. eapply deqv_wf; eauto. }
  unfold unsnake. destruct ls.
  - destruct (@phase1_left M [] A cap (cup :: B) d (off cap) j' W) as (A1 & cap1 & R1 & d1 & E1 & Q1 & L1 & B1 & O1 & F1 & Ln & P1); auto.
    cbn [List.length seq app] in E1. rewrite !Nat.add_0_r in E1.
    match goal with |- context [foldM ?f _ (d, List.length A, _)] => change f with ph1l end.
    rewrite E1. cbn [bind].
    assert (W1 := deqv_wf Q1).
    assert (Nc : ndom cup = 2) by (unfold ndom; now rewrite U).
    destruct (@phase2_left R1 (A1 ++ [cap1]) cup B d1 W1) as (cup2 & B2 & d2 & E2 & Q2 & L2 & Bc2 & O2 & P2).
    { rewrite L1, <- app_assoc. reflexivity. }
    { eapply Forall_impl; [|exact F1]. cbn. intros. lia. }
    rewrite app_length in E2. cbn [List.length] in E2.
    match goal with |- context [foldM ?f (rev _) (d1, _)] => change f with ph2l end.
    replace (List.length A + 1 + List.length M) with (List.length A1 + 1 + List.length R1) by (cbn in Ln; lia).
    rewrite E2. cbn [bind].
    eapply (FIN d2 A1 cap1 cup2 B2).
    + eapply deqv_trans; eauto.
    + rewrite L2, <- app_assoc. reflexivity.
    + congruence.
    + congruence.
    + left. lia.
    + etransitivity; eauto.
  - assert (Nc : ndom cup = 2) by (unfold ndom; now rewrite U).
    destruct (@phase1_right M [] (A ++ [cap]) cup B d (off cap + 1) j' W) as (cup1 & R1 & B1 & d1 & E1 & Q1 & L1 & Bc1 & O1 & F1 & P1); auto.
    { rewrite L, <- app_assoc. reflexivity. }
    { lia. }
    rewrite app_length in E1. cbn [List.length seq app] in E1. rewrite !Nat.add_0_r, app_nil_r in E1.
    match goal with |- context [foldM ?f (rev _) (d, _, _)] => change f with ph1r end.
    rewrite E1. cbn [bind].
    assert (W1 := deqv_wf Q1).
    assert (Nk : ncod cap = 2) by (unfold ncod; now rewrite C).
    destruct (@phase2_right R1 A cap (cup1 :: B1) d1 W1) as (A2 & cap2 & d2 & E2 & Ln2 & Q2 & L2 & Bc2 & O2 & P2).
    { rewrite L1, <- app_assoc. reflexivity. }
    { eapply Forall_impl; [|exact F1]. cbn. intros. lia. }
    match goal with |- context [foldM ?f _ (d1, List.length A)] => change f with ph2r end.
    rewrite E2. cbn [bind].
    replace (List.length A + 1 + List.length R1) with (List.length A2 + 1) by lia.
    eapply (FIN d2 A2 cap2 cup1 B1).
    + eapply deqv_trans; eauto.
    + exact L2.
    + congruence.
    + congruence.
    + right. lia.
    + etransitivity; eauto.
Qed.

Lemma no_mixed_incl bs cs : incl cs bs -> no_mixed bs -> no_mixed cs.
Proof. intros I N l r v l' r' v' A B. apply N; auto. Qed.

Lemma remove_snakes_ok fuel : forall d, wf d -> no_mixed (boxes d) -> List.length (layers d) < fuel ->
  exists d' rm, remove_snakes fuel d = Some (Ok d') /\ deqvr d d' /\ ~ has_snake d' /\
    Permutation (boxes d) (rm ++ boxes d') /\ Forall (fun b => is_cap b || is_cup b = true) rm.
Proof.
  induction fuel as [|fuel IH]; intros d W N L; [lia|]. cbn [remove_snakes].
  destruct (find_snake d) as [s|] eqn:F.
  - destruct (unsnake_ok W F) as (d1 & bc & bu & E & _ & _ & C & U & P & Q). rewrite E.
    assert (Q1 := Q N). assert (W1 := deqvr_wf Q1).
    destruct (IH d1 W1) as (d' & rm & E' & Q' & S' & P' & F').
    { eapply no_mixed_incl; [|exact N]. intros b I. eapply Permutation_in; [symmetry; exact P|]. cbn; auto. }
    { apply Permutation_length in P. unfold boxes in P. cbn in P. rewrite !map_length in P. lia. }
    exists d', (bc :: bu :: rm). conjs; auto.
    + eapply deqvr_trans; eauto.
    + rewrite P. cbn. now rewrite P'.
    + repeat constructor; auto; rewrite ?C, ?U, ?orb_true_r; auto.
  - exists d, []. conjs; auto.
    + now apply deqvr_refl.
    + now apply find_snake_none.
Qed.

(** ** normal form *)
Lemma movable_ok left d i : wf d -> movable left (layers d) i = true ->
  exists d', interchange d (Z.of_nat i) (Z.of_nat (i + 1)) left = Ok d' /\ deqv d d' /\ Permutation (boxes d) (boxes d').
Proof.
  intros W H. unfold movable in H. destruct (skipn i (layers d)) as [|x0 [|x1 rest]] eqn:S; try discriminate.
  assert (L : layers d = firstn i (layers d) ++ x0 :: x1 :: rest) by (now rewrite <- (firstn_skipn i (layers d)), S at 1).
  assert (Li : i < List.length (layers d)).
  { destruct (Nat.lt_ge_cases i (List.length (layers d))) as [|G]; auto. rewrite skipn_all2 in S by auto. discriminate. }
  assert (LF : List.length (firstn i (layers d)) = i) by (rewrite firstn_length; lia).
  assert (K : exists y0 y1, commute left x0 x1 = Ok (y0, y1)).
  { unfold commute. destruct x0 as [[l0 b0] r0], x1 as [[l1 b1] r1]. destruct left; cbn [andb orb negb] in *.
    - rewrite orb_false_r in H. rewrite H. eauto.
    - rewrite H. eauto. }
  destruct K as (y0 & y1 & K). pose proof (commute_adj L K) as E. rewrite LF in E.
  exists (mk d (firstn i (layers d) ++ y0 :: y1 :: rest)).
  pose proof (fun d' => @interchange_one_down d _ _ _ _ left d' L) as ID. rewrite LF in ID. rewrite (ID _ E).
  conjs; auto; [eapply interchange_adj_deqv; eauto|].
  eapply swap_boxes; eauto; apply commute_exch in K; [destruct K; subst; reflexivity| |destruct K; subst; reflexivity|];
    eapply wf_mid; eauto.
Qed.

(** the finite set of layer lists with given boxes *)
Fixpoint words_over {X} (n : nat) (alpha : list X) : list (list X) :=
  match n with
  | O => [[]]
  | S n' => flat_map (fun a => map (cons a) (words_over n' alpha)) alpha
  end.
Lemma in_words_over X (alpha : list X) w : Forall (fun x => In x alpha) w -> In w (words_over (List.length w) alpha).
Proof.
  induction 1 as [|x w Hx _ IH]; cbn; auto. apply in_flat_map. exists x; split; auto. now apply in_map.
Qed.
Definition code (d : diagram) : list (box * nat) := map (fun x => (l_box x, off x)) (layers d).
Lemma code_inj_layers ls : forall ks d c c', chain d ls c -> chain d ks c' ->
  map (fun x => (l_box x, off x)) ls = map (fun x => (l_box x, off x)) ks -> ls = ks.
Proof.
  induction ls as [|x ls IH]; intros [|y ks] d c c' H K E; try discriminate; auto.
  cbn in H, K, E. injection E as Eb Eo E. destruct H as [Hd H], K as [Kd K].
  assert (x = y).
  { destruct x as [[l b] r], y as [[l' b'] r']. unfold off in Eo. cbn in *. subst b'. rewrite Hd in Kd.
    destruct (app_len_inv Eo Kd) as [-> E2]. apply app_inv_head in E2. congruence. }
  subst y. f_equal. eapply IH; eauto.
Qed.

Definition total_cod (ls : list box) : nat := fold_right (fun b n => List.length (b_cod b) + n) 0 ls.
Lemma chain_width ls : forall d c, chain d ls c -> Forall (fun x => off x <= List.length d + total_cod (map l_box ls)) ls.
Proof.
  induction ls as [|x ls IH]; intros d c H; constructor; cbn in H; destruct H as [-> H].
  - destruct x as [[l b] r]. unfold off. cbn. rewrite !app_length. lia.
  - eapply Forall_impl; [|apply (IH _ _ H)]. intros y Hy.
    destruct x as [[l b] r]. unfold total_cod in *. cbn [l_cod l_dom map l_box fold_right] in *. rewrite !app_length in *. lia.
Qed.
Lemma total_cod_perm a b : Permutation a b -> total_cod a = total_cod b.
Proof. induction 1; unfold total_cod in *; cbn [fold_right]; lia. Qed.

Section Bound.
  Variable d0 : diagram.
  Hypothesis W0 : wf d0.
  Let reach d := deqv d0 d /\ Permutation (boxes d0) (boxes d).
  Let alpha := list_prod (boxes d0) (seq 0 (S (List.length (dom d0) + total_cod (boxes d0)))).
  Let univ := words_over (List.length (boxes d0)) alpha.

  Lemma reach_code d : reach d -> In (code d) univ.
  Proof.
    intros [Q P]. unfold univ. replace (List.length (boxes d0)) with (List.length (code d)).
    2:{ apply Permutation_length in P. unfold boxes in *. rewrite P. unfold code. now rewrite !map_length. }
    apply in_words_over. destruct (deqv_wf Q) as [H _]. pose proof (chain_width H) as Wd.
    apply Forall_forall. intros [b o] I. unfold code in I. apply in_map_iff in I. destruct I as (x & [= <- <-] & I).
    apply in_prod.
    - eapply Permutation_in; [symmetry; exact P|]. unfold boxes. now apply in_map.
    - apply in_seq. rewrite Forall_forall in Wd. specialize (Wd x I). destruct Q as (E & _ & _). rewrite E in Wd.
      fold (boxes d) in Wd. rewrite <- (total_cod_perm P) in Wd. lia.
  Qed.
  Lemma reach_inj d e : reach d -> reach e -> code d = code e -> d = e.
  Proof.
    intros [Q P] [Q' P'] E. destruct Q as (D & C & _ & _ & H & _), Q' as (D' & C' & _ & _ & H' & _).
    destruct d, e; cbn in *. subst. f_equal. eapply code_inj_layers; eauto.
  Qed.
  Lemma cache_bound cache : NoDup cache -> Forall reach cache -> List.length cache <= List.length univ.
  Proof.
    intros N F. rewrite <- (map_length code). apply NoDup_incl_length.
    - induction N as [|d cache I N IH]; cbn; constructor; inversion F; subst; auto.
      rewrite in_map_iff. intros (e & E & Ie). apply I.
      replace d with e; auto. apply reach_inj; auto. rewrite Forall_forall in *; auto.
    - intros c I. apply in_map_iff in I. destruct I as (d & <- & I). apply reach_code. rewrite Forall_forall in F; auto.
  Qed.

  Lemma pass_ok left is : forall d cache moved, wf d -> reach d -> NoDup cache -> Forall reach cache ->
    (exists d' cache' moved', foldM (nf_step left) is (d, cache, moved) = Ok (d', cache', moved') /\
       reach d' /\ NoDup cache' /\ Forall reach cache' /\ List.length cache <= List.length cache' /\
       (moved = true -> moved' = true) /\
       (moved' = true -> moved = true \/ List.length cache < List.length cache') /\
       (moved' = false -> d' = d /\ Forall (fun i => movable left (layers d) i = false) is))
    \/ foldM (nf_step left) is (d, cache, moved) = Err NotImplementedError.
  Proof.
    induction is as [|i is IH]; intros d cache moved W R N F.
    - left. exists d, cache, moved. cbn. conjs; auto.
    - cbn [foldM]. unfold nf_step at 1 3. destruct (movable left (layers d) i) eqn:Mv.
      + destruct (movable_ok W Mv) as (d1 & E & Q & P). rewrite E. cbn [bind].
        destruct (existsb (diagram_eqb d1) cache) eqn:Ex; [right; reflexivity|]. cbn [bind].
        assert (R1 : reach d1).
        { destruct R as [Q0 P0]. split; [eapply deqv_trans; eauto|etransitivity; eauto]. }
        assert (NI : ~ In d1 cache).
        { intro I. assert (existsb (diagram_eqb d1) cache = true); [|congruence]. apply existsb_exists. exists d1. split; auto. now apply diagram_eqb_iff. }
        destruct (IH d1 (d1 :: cache) true) as [(d' & c' & m' & E' & R' & N' & F' & L' & M1 & M2 & M3)|E']; auto.
        { eapply deqv_wf; eauto. }
        { constructor; auto. }
        left. exists d', c', m'. cbn [List.length] in L'. conjs; auto.
        * lia.
        * intro Z. rewrite (M1 eq_refl) in Z. discriminate.
      + cbn [bind]. destruct (IH d cache moved) as [(d' & c' & m' & E' & R' & N' & F' & L' & M1 & M2 & M3)|E']; auto.
        left. exists d', c', m'. conjs; auto. intro Z. destruct (M3 Z) as [-> FM]. split; auto.
  Qed.

  Lemma normalize_ok fuel : forall left d cache, reach d -> NoDup cache -> Forall reach cache ->
    List.length univ < fuel + List.length cache ->
    (exists d', normalize fuel left d cache = Some (Ok d') /\ reach d' /\
       Forall (fun i => movable left (layers d') i = false) (seq 0 (List.length (layers d') - 1)))
    \/ normalize fuel left d cache = Some (Err NotImplementedError).
  Proof.
    induction fuel as [|fuel IH]; intros left d cache R N F L.
    - pose proof (cache_bound N F). lia.
    - cbn [normalize].
      assert (W : wf d) by (destruct R as [Q _]; eapply deqv_wf; eauto).
      destruct (@pass_ok left (seq 0 (List.length (layers d) - 1)) d cache false W R N F)
        as [(d' & c' & m' & E' & R' & N' & F' & L' & M1 & M2 & M3)|E']; rewrite E'.
      + destruct m'.
        * destruct (M2 eq_refl) as [|G]; [discriminate|]. apply IH; auto. lia.
        * destruct (M3 eq_refl) as [-> FM]. left. exists d. auto.
      + auto.
  Qed.
End Bound.

Lemma movable_settled left d : Forall (fun i => movable left (layers d) i = false) (seq 0 (List.length (layers d) - 1)) -> settled left d.
Proof.
  intros F A x0 x1 B L. rewrite Forall_forall in F.
  assert (H : movable left (layers d) (List.length A) = false).
  { apply F, in_seq. rewrite L, app_length. cbn. lia. }
  unfold movable in H. rewrite L, skipn_app, skipn_all, Nat.sub_diag, skipn_O in H. cbn [app] in H.
  unfold pos_of, wires_in, wires_out. fold (off x0) (off x1) (ncod x0) (ndom x1).
  destruct left; cbn in H.
  - rewrite orb_false_r in H. now apply Nat.leb_gt in H.
  - now apply Nat.leb_gt in H.
Qed.

Lemma remove_snakes_fuel f : forall d r f', remove_snakes f d = Some r -> f <= f' -> remove_snakes f' d = Some r.
Proof.
  induction f as [|f IH]; intros d r f' E L; [discriminate|]. destruct f'; [lia|]. cbn in *.
  destruct (find_snake d); auto. destruct (unsnake d s); auto. apply IH; auto. lia.
Qed.
Lemma normalize_fuel f : forall left d c r f', normalize f left d c = Some r -> f <= f' -> normalize f' left d c = Some r.
Proof.
  induction f as [|f IH]; intros left d c r f' E L; [discriminate|]. destruct f'; [lia|]. cbn in *.
  destruct (foldM _ _ _) as [[[d' c'] m]|]; auto. destruct m; auto. apply IH; auto. lia.
Qed.

Lemma normal_form_ok left d : wf d -> no_mixed (boxes d) ->
  exists F r, (forall fuel, F <= fuel -> normal_form fuel left d = Some r) /\
    (r = Err NotImplementedError \/ exists d', r = Ok d' /\ deqvr d d' /\ settled left d').
Proof.
  intros W N. destruct (@remove_snakes_ok (S (List.length (layers d))) d W N) as (d1 & rm & E & Q & _ & _ & _); [lia|].
  assert (W1 := deqvr_wf Q).
  set (F1 := S (List.length (layers d))) in *.
  destruct (@normalize_ok d1 (S (List.length (words_over (List.length (boxes d1)) (list_prod (boxes d1) (seq 0 (S (List.length (dom d1) + total_cod (boxes d1)))))))) left d1 [])
    as [(d' & E' & [Q' _] & M)|E'].
  - split; [now apply deqv_refl|reflexivity].
  - constructor.
  - constructor.
  - cbn [List.length]. lia.
  - match type of E' with normalize ?f2 _ _ _ = _ => exists (F1 + f2), (Ok d') end. split.
    + intros fuel L. unfold normal_form. rewrite (remove_snakes_fuel E) by lia. apply (normalize_fuel E'). lia.
    + right. exists d'. conjs; auto; [|now apply movable_settled]. eapply deqvr_trans; [exact Q|]. now apply deqv_deqvr.
  - match type of E' with normalize ?f2 _ _ _ = _ => exists (F1 + f2), (Err NotImplementedError) end. split; auto.
    intros fuel L. unfold normal_form. rewrite (remove_snakes_fuel E) by lia. apply (normalize_fuel E'). lia.
Qed.

(** ** pregroup_normal_form *)
Lemma take_words_spec ls : forall d c words w ok, chain d ls c -> boxes_ok ls -> wf words -> dom words = [] -> d = cod words ->
  take_words ls words = (w, ok) ->
  exists p q, ls = p ++ q /\ layers w = layers words ++ p /\ wf w /\ dom w = [] /\ chain (cod w) q c /\ boxes_ok q.
Proof.
  induction ls as [|[[l b] r] ls IH]; intros d c words w ok H B W D E T; cbn in T.
  - injection T as <- <-. exists [], []. rewrite app_nil_r. cbn in H. conjs; auto; cbn; rewrite ?app_nil_r; auto; congruence.
  - assert (DONE : (words, ok) = (w, ok) -> exists p q, (l, b, r) :: ls = p ++ q /\ layers w = layers words ++ p /\ wf w /\ dom w = [] /\ chain (cod w) q c /\ boxes_ok q).
    { intros [= <-]. exists [], ((l, b, r) :: ls). rewrite app_nil_r. cbn [app]. subst d. conjs; auto. }
    destruct b; try (assert (ok = true) by congruence; subst ok; auto).
    destruct r as [|a r]; [|assert (ok = false) by congruence; subst ok; auto].
    cbn in H, B. destruct H as [-> H], B as [B1 B]. rewrite app_nil_r in E. subst l.
    destruct (fun A1 A2 A3 => IH _ _ _ _ _ H B A1 A2 A3 T) as (p & q & E1 & E2 & R).
    + apply wf_tensor; auto. now apply wf_to_diag.
    + rewrite tensor_eq, D. reflexivity.
    + rewrite tensor_eq. cbn. now rewrite app_nil_r.
    + exists ((cod words, Word name wcod z, []) :: p), q. cbn. rewrite E1. conjs; auto; try apply R.
      rewrite E2, tensor_eq. cbn. rewrite (map_ext _ (fun x => x)), map_id, <- app_assoc, app_nil_r; auto.
      intros x. apply l_extend_nil.
Qed.

Lemma d_slice_from d p q m : layers d = p ++ q -> chain (dom d) p m -> chain m q (cod d) ->
  boxes_ok p -> boxes_ok q -> d_slice d (Some (Z.of_nat (List.length p))) None = Ok (Diag m (cod d) q).
Proof.
  intros L H1 H2 B1 B2.
  destruct (@d_slice_split d (Z.of_nat (List.length p))) as (x & y & E1 & E2 & E3).
  { split; rewrite L; [eapply chain_app_i; eauto|apply All_app; auto]. }
  assert (W : wf d) by (split; rewrite L; [eapply chain_app_i; eauto|apply All_app; auto]).
  rewrite E2. destruct (d_slice_wf None (Some (Z.of_nat (List.length p))) W) as (x' & X1 & X2 & X3).
  destruct (d_slice_wf (Some (Z.of_nat (List.length p))) None W) as (y' & Y1 & Y2 & Y3).
  assert (x' = x) by congruence. assert (y' = y) by congruence. subst x' y'.
  apply d_then_inv in E3. destruct E3 as [Ec E3].
  rewrite py_slice_stop in X3. rewrite py_slice_start in Y3.
  rewrite adj_of_nat, Nat.min_l in X3, Y3 by (rewrite L, app_length; lia).
  rewrite L, firstn_app, Nat.sub_diag, firstn_O, app_nil_r, firstn_all in X3.
  rewrite L, skipn_app, Nat.sub_diag, skipn_O, skipn_all in Y3. cbn in Y3.
  f_equal. destruct y as [yd yc yl]. cbn in *. subst yl.
  destruct X2 as [X2 _]. rewrite X3 in X2.
  assert (dom d = dom x) by (rewrite E3 at 1; reflexivity).
  assert (cod d = yc) by (rewrite E3 at 1; reflexivity).
  f_equal; auto. rewrite <- Ec. rewrite <- H in X2. eapply chain_fun; eauto.
Qed.

Lemma deqvr_then a b a' b' : cod a = dom b -> deqvr a a' -> deqvr b b' ->
  exists c', d_then a' b' = Ok c' /\ deqvr (Diag (dom a) (cod b) (layers a ++ layers b)) c'.
Proof.
  intros E Qa Qb. pose proof Qa as (A1 & A2 & A3 & A4 & A5 & A6 & A7). pose proof Qb as (B1 & B2 & B3 & B4 & B5 & B6 & B7).
  rewrite d_then_ok by congruence. eexists. split; [reflexivity|]. unfold deqvr, leqvr. cbn [dom cod layers]. rewrite <- E in *.
  conjs; auto.
  - eapply chain_app_i; eauto.
  - apply All_app; auto.
  - eapply chain_app_i; eauto.
  - apply All_app; auto.
  - intros C I R. rewrite (@den_layers_app C I _ _ _ _ _ A3 B3 A4 B4), (@den_layers_app C I _ _ _ _ _ A5 B5 A6 B6).
    apply cmp_heq; auto.
Qed.

Lemma pregroup_normal_form_ok d : wf d -> no_mixed (boxes d) -> dom d = [] ->
  exists F r, (forall fuel, F <= fuel -> pregroup_normal_form fuel d = Some r) /\
    (r = Err NotImplementedError \/ exists d', r = Ok d' /\ deqvr d d').
Proof.
  intros W N D. unfold pregroup_normal_form.
  destruct (take_words (layers d) (id [])) as [words ok] eqn:T.
  pose proof W as [H B]. rewrite D in H.
  destruct (@take_words_spec (layers d) [] (cod d) (id []) words ok) as (p & q & L & Lw & Ww & Dw & Hq & Bq); auto using wf_id.
  cbn [id layers app] in Lw. pose proof Ww as [Hp Bp]. rewrite Lw, Dw in *.
  rewrite (@d_slice_from d p q (cod words)); auto; [|now rewrite D].
  destruct (negb _ || _).
  { destruct (@normal_form_ok false d W N) as (F & r & E & [->|(d' & -> & Q & _)]); exists F; eauto 10. }
  set (wires := Diag (cod words) (cod d) q).
  assert (Wq : wf wires) by (split; auto).
  assert (Iw : incl (boxes words) (boxes d)) by (intros b; unfold boxes; rewrite L, Lw, map_app; apply in_or_app + idtac; intro; apply in_or_app; auto).
  assert (Iq : incl (boxes wires) (boxes d)) by (intros b; unfold boxes; rewrite L, map_app; intro; apply in_or_app; auto).
  destruct (@normal_form_ok false words Ww (no_mixed_incl Iw N)) as (F1 & r1 & E1 & [->|(a & -> & Qa & _)]).
  { exists F1. eexists. split; [intros fuel L1; rewrite (E1 _ L1); reflexivity|]. auto. }
  destruct (@normal_form_ok false wires Wq (no_mixed_incl Iq N)) as (F2 & r2 & E2 & [->|(b & -> & Qb & _)]).
  { exists (F1 + F2). eexists. split; [intros fuel L1; rewrite E1, E2 by lia; reflexivity|]. auto. }
  destruct (@deqvr_then words wires a b eq_refl Qa Qb) as (c & Ec & Qc).
  exists (F1 + F2). eexists. split; [intros fuel L1; rewrite E1, E2 by lia; reflexivity|]. right. exists c. split; auto.
  cbn [wires dom cod layers] in Qc. rewrite Dw, Lw, <- L in Qc. rewrite <- D in Qc at 1. destruct d; exact Qc.
Qed.
