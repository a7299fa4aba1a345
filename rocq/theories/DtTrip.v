(** From diagrams back to pregroup trees (C79, lemmas only). *)
From Coq Require Import Sorted.
From Verif Require Import PyBase PyFacts TyModel TyFacts DiagModel DiagSpec DiagFacts DiagMisc MiscModel MiscFacts TreeModel TreeSpec TreeFacts TreeRew TdModel TdSpec TdComps TdPairs TdWires TdFix TdPlanar DtModel DtRead DtBuild.
Close Scope string_scope. Set Implicit Arguments. Unset Strict Implicit.

Definition flat2 A (l : list (A * A)) : list A := List.concat (map (fun p => [fst p; snd p]) l).
Lemma joins_perm A ls : forall (ws : list A) ps rem, joins ls ws = (ps, rem) -> Permutation (flat2 ps ++ rem) ws.
Proof.
  induction ls as [|[[l b] r] ls IH]; intros ws ps rem E; cbn [joins] in E; [injection E as <- <-; reflexivity|].
  assert (D : ws = firstn (List.length l) ws ++ skipn (List.length l) ws) by (symmetry; apply firstn_skipn). destruct (skipn (List.length l) ws) as [|a [|a' w2]]; [eapply IH; eauto | eapply IH; eauto|].
  destruct b; try (eapply IH; eauto; fail).
  - destruct (joins ls (firstn (List.length l) ws ++ w2)) as [ps' r'] eqn:J. injection E as <- <-. rewrite D. rewrite <- Permutation_middle, <- Permutation_middle, <- (IH _ _ _ J). reflexivity.
  - rewrite (IH _ _ _ E). rewrite D at 2. apply Permutation_app_head. constructor.
Qed.
Lemma flat2_nodup A (l : list (A * A)) : NoDup (flat2 l) -> NoDup l.
Proof.
  induction l as [|[a b] l IH]; intros H; [constructor|]. unfold flat2 in H. cbn [map List.concat app fst snd] in H. inversion H as [|? ? H1 H2]; subst. inversion H2 as [|? ? H3 H4]; subst. constructor; [|now apply IH]. intros I. apply H3. apply in_concat. exists [a; b]. split; [apply in_map_iff; exists (a, b); auto | now right; left].
Qed.
Lemma flat2_in A (l : list (A * A)) b : In b l -> In (fst b) (flat2 l) /\ In (snd b) (flat2 l).
Proof. intros H. split; apply in_concat; exists [fst b; snd b]; (split; [apply in_map_iff; exists b; auto | cbn; auto]). Qed.
Lemma keys_wires tokens : forall (wc : wcomps) i, List.length tokens = List.length wc -> keys_from i (words_of tokens wc) = map (fun w : wire => Some (nth (Z.to_nat (fst (fst w)) - i) tokens EmptyString, Z.to_nat (fst (fst w)))) (wires_from (Z.of_nat i) wc).
Proof.
  induction tokens as [|tok tokens IH]; intros [|cs wc] i L; try discriminate; [reflexivity|]. unfold words_of. cbn [combine map keys_from wires_from]. fold (words_of tokens wc). rewrite map_app. f_equal.
  - transitivity (repeat (Some (tok, i)) (List.length (word_wires (Z.of_nat i) cs))); [f_equal; symmetry; exact (word_len (Z.of_nat i) cs)|]. assert (G : forall w, In w (word_wires (Z.of_nat i) cs) -> fst (fst w) = Z.of_nat i) by (intros w Hw; destruct (word_wires_in Hw) as (o & t & k & -> & _); reflexivity). induction (word_wires (Z.of_nat i) cs) as [|w ws IHw]; [reflexivity|]. cbn [List.length repeat map]. rewrite (G w (or_introl eq_refl)), Nat2Z.id, Nat.sub_diag. cbn [nth]. f_equal. apply IHw. intros; apply G; now right.
  - rewrite (IH wc (S i)) by (cbn in L; lia). replace (Z.of_nat i + 1)%Z with (Z.of_nat (S i)) by lia. apply map_ext_in. intros w Hw. destruct (wires_in Hw) as (j & Lj & Hj). destruct (word_wires_in Hj) as (o & t & k & -> & _). cbn [fst]. f_equal. f_equal. replace (Z.to_nat (Z.of_nat (S i) + Z.of_nat j) - i) with (S (Z.to_nat (Z.of_nat (S i) + Z.of_nat j) - S i)) by lia. reflexivity.
Qed.
Lemma filter_all A (f : A -> bool) l : (forall x, In x l -> f x = true) -> filter f l = l.
Proof. induction l as [|x l IH]; intros H; [reflexivity|]. cbn. rewrite (H x (or_introl eq_refl)). f_equal. apply IH. intros; apply H; now right. Qed.
Lemma filter_none A (f : A -> bool) l : (forall x, In x l -> f x = false) -> filter f l = [].
Proof. induction l as [|x l IH]; intros H; [reflexivity|]. cbn. rewrite (H x (or_introl eq_refl)). apply IH. intros; apply H; now right. Qed.
Lemma wires_filter (wc : wcomps) : forall i j, j < List.length wc -> filter (fun w : wire => (fst (fst w) =? i + Z.of_nat j)%Z) (wires_from i wc) = word_wires (i + Z.of_nat j) (nth j wc []).
Proof.
  assert (Wi : forall i cs w, In w (word_wires i cs) -> fst (fst w) = i) by (intros i cs w H; destruct (word_wires_in H) as (o & t & k & -> & _); reflexivity).
  induction wc as [|cs wc IH]; intros i j L; [cbn in L; lia|]. cbn [wires_from]. rewrite filter_app. destruct j as [|j].
  - rewrite Z.add_0_r. cbn [nth]. rewrite filter_all by (intros w H; apply Z.eqb_eq; exact (Wi _ _ _ H)). rewrite filter_none; [apply app_nil_r|]. intros w H. destruct (wires_in H) as (j & _ & Hj). apply Wi in Hj. apply Z.eqb_neq. lia.
  - cbn [nth]. rewrite filter_none by (intros w H; apply Wi in H; apply Z.eqb_neq; lia). cbn [app]. replace (i + Z.of_nat (S j))%Z with (i + 1 + Z.of_nat j)%Z by lia. apply IH. cbn in L. lia.
Qed.
Lemma filter_map_comm A B (f : A -> B) g l : filter g (map f l) = map f (filter (fun x => g (f x)) l).
Proof. induction l as [|x l IH]; [reflexivity|]. cbn. destruct (g (f x)); cbn; now rewrite IH. Qed.
Lemma drop_free free : forall l, exists l', foldM (fun l i => if existsb (Nat.eqb i) l then remove_val Nat.eqb i l else Ok l) free l = Ok l' /\ forall q, ~ In q free -> In q l -> In q l'.
Proof.
  induction free as [|f free IH]; intros l; [exists l; auto|]. cbn [foldM]. destruct (existsb (Nat.eqb f) l) eqn:E.
  - apply existsb_exists in E. destruct E as (x & Hx & E). apply Nat.eqb_eq in E. subst x. destruct (remove_val_ok Nat.eqb_eq Hx) as (l1 & E1 & M & _). rewrite E1. cbn [bind]. destruct (IH l1) as (l2 & E2 & M2). exists l2. split; [exact E2|]. intros q Nq Hq. apply M2; [intros X; apply Nq; now right|]. apply M; [intros ->; apply Nq; now left | exact Hq].
  - cbn [bind]. destruct (IH l) as (l2 & E2 & M2). exists l2. split; [exact E2|]. intros q Nq Hq. apply M2; [intros X; apply Nq; now right | exact Hq].
Qed.
Lemma mapM_ok A B (f : A -> res B) (g : A -> B) l : (forall x, In x l -> f x = Ok (g x)) -> mapM f l = Ok (map g l).
Proof. induction l as [|x l IH]; intros H; [reflexivity|]. cbn. rewrite (H x (or_introl eq_refl)). cbn. rewrite IH by (intros; apply H; now right). reflexivity. Qed.
Lemma arcs_le root : (forall m, In m (subtrees root) -> n_typ m <> []) -> forall l, (forall x, In x l -> In x (arcs root)) -> List.length l <= List.length (List.concat (map arc_pairs l)).
Proof.
  intros Ne. induction l as [|[p c] l IH]; intros H; [cbn; lia|]. cbn [map List.concat List.length]. rewrite app_length. specialize (IH (fun x Hx => H x (or_intror Hx))). assert (I := H _ (or_introl eq_refl)). apply arcs_in in I. destruct I as [I1 I2]. assert (Nt := Ne c (sub_child I1 I2)). unfold arc_pairs. cbn [snd]. rewrite map_length, seq_length. change (1 + List.length l <= List.length (n_typ c) + List.length (List.concat (map arc_pairs l))). apply Nat.add_le_mono; [destruct (n_typ c); [congruence | cbn; lia] | exact IH].
Qed.

Theorem connected_ok root (tokens : list string) (wc : wcomps) d ls ps : tidy (List.length tokens) root -> linked None root -> (forall m, In m (subtrees root) -> n_typ m <> [] /\ nth_error tokens (Z.to_nat (n_ind m)) = Some (n_word m)) ->
  List.length wc = List.length tokens -> (forall i, i < List.length tokens -> word_links root (Z.of_nat i) (nth i wc [])) ->
  wf d -> dom d = [] -> layers d = word_layers [] (words_of tokens wc) ++ ls -> Forall (fun x => planar_box (l_box x)) ls -> joins ls (wires wc) = (ps, part_wires (n_ind root) ((-1)%Z, n_typ root)) -> Permutation ps (List.concat (map arc_pairs (arcs root))) ->
  ls <> [] \/ List.length tokens = 1 -> diagram2tree d = Ok (canon root).
Proof.
  intros Td Lk Nodes Lw WL Wf Dd Ly Bx J Pp Some_. assert (Ne : forall m, In m (subtrees root) -> n_typ m <> []) by (intros m H; apply Nodes, H).
  assert (Rr := root_range Td). assert (Sr := sub_self root). set (words := words_of tokens wc) in *. assert (Wc : flat_map snd words = cods wc) by now apply words_cods.
  unfold diagram2tree, read_layers. rewrite Ly, combine_seq_app, foldM_app. rewrite read_words by reflexivity. cbn [bind wbt types wds app]. set (st0 := DState (keys_from 0 words) (flat_map snd words) [] [] (wds_from 0 words)).
  destruct ls as [|x0 ls0].
  - cbn [List.length seq combine foldM bind absb st0 wds]. destruct Some_ as [C | L1]; [congruence|]. cbn [joins] in J. injection J as <- Ew. apply Permutation_nil in Pp.
    assert (Na : arcs root = []). { assert (X := arcs_le Ne (l := arcs root) ltac:(auto)). rewrite Pp in X. destruct (arcs root); [reflexivity | cbn in X; lia]. }
    destruct tokens as [|tok [|? ?]]; try discriminate. destruct wc as [|cs [|? ?]]; try discriminate. cbn [words words_of combine map wds_from]. destruct (WL 0 ltac:(cbn; lia)) as [P _]. cbn [nth] in P. unfold links in P. rewrite Na in P. cbn [map List.concat] in P. rewrite app_nil_r in P. cbn [List.length] in Rr. assert (R0 : n_ind root = 0%Z) by lia. rewrite R0 in P. cbn in P. apply Permutation_sym, Permutation_length_1_inv in P. subst cs. cbn [map List.concat snd]. rewrite app_nil_r.
    destruct (Nodes root Sr) as [_ Nw]. rewrite R0 in Nw. cbn in Nw. injection Nw as ->. rewrite (arcs_eta root) in Na. apply app_eq_nil in Na. destruct Na as [Na _]. clear -Lk Na R0. destruct Lk as [q w i t cs F]. cbn in *. destruct cs; [|discriminate]. now subst i.
  - clear Some_. set (ls := x0 :: ls0) in *. set (W := wires wc) in *. set (N := List.length W). set (wd := fun p => nth p W (0%Z, 0%Z, 0)). assert (Ew : W = map wd (seq 0 N)) by (symmetry; apply map_nth_seq). assert (Wl : N = List.length (cods wc)) by apply wires_len.
    destruct (joins ls (seq 0 N)) as [C0 free] eqn:J0. assert (J' := J). rewrite Ew, joins_map, J0 in J'. cbn [fst snd] in J'. injection J' as Eps Efr.
    assert (Nf : free <> []). { intros ->. cbn in Efr. unfold part_wires in Efr. cbn [snd] in Efr. assert (X := Ne root Sr). destruct (n_typ root); [congruence | discriminate]. }
    destruct Wf as [Ch _]. rewrite Dd, Ly in Ch. apply chain_app in Ch. destruct Ch as (M & Ch1 & Ch2). destruct (word_layers_wf words []) as [Ch1' _]. cbn [app] in Ch1'. assert (EM : M = flat_map snd words).
    { clear -Ch1 Ch1'. revert Ch1 Ch1'. generalize (word_layers [] words) as l. generalize (@nil atom). generalize (flat_map snd words). intros B A l. revert A. induction l as [|x l IH]; intros A H1 H2; cbn in *; [congruence|]. destruct H1, H2. eauto. }
    subst M. destruct (@read_cups ls (0 + List.length (word_layers [] words)) (seq 0 N) _ _ C0 free st0 Ch2 Bx) as (st & Er & Hw & Ht & Hf & Hab & Hcap & Hcup); [rewrite seq_length, Wc; lia | exact J0 | exact Nf | discriminate | cbn [tind st0 types]; rewrite Wc, <- Wl; reflexivity | constructor|].
    cbn [wbt types absb st0 filter app] in Hw, Ht, Hcup. rewrite Er. cbn [bind]. destruct (absb st) as [|ab0 abs] eqn:Eab; [congruence|]. rewrite <- Eab in *. clear Eab Hab.
    assert (Ecap : filter (is_kind ACap) (absb st) = []) by (apply filter_none; intros b Hb; rewrite Forall_forall in Hcap; now apply Hcap). rewrite Ecap. cbn [foldM bind fst snd]. rewrite Hf, Hw, Ht. clear Er Hf Hw Ht Hcap Ecap.
    (* the interface *)
    assert (Kw : keys_from 0 words = map (fun w : wire => Some (nth (Z.to_nat (fst (fst w))) tokens EmptyString, Z.to_nat (fst (fst w)))) W). { unfold words. rewrite keys_wires by congruence. apply map_ext. intros w. now rewrite Nat.sub_0_r. }
    assert (Wp : forall p, p < N -> nth_error W p = Some (wd p)) by (intros p Hp; unfold wd; apply nth_error_nth'; exact Hp).
    assert (Ndw : NoDup W) by (apply wires_nodup; unfold W; apply (@W_sorted root (List.length tokens)); auto).
    assert (Hinj : forall p q, p < N -> q < N -> wd p = wd q -> p = q). { intros p q Hp Hq E. rewrite NoDup_nth_error in Ndw. apply Ndw; [exact Hp|]. rewrite !Wp by assumption. congruence. }
    assert (Hwb : forall p m, p < N -> In m (subtrees root) -> fst (fst (wd p)) = n_ind m -> nth_error (keys_from 0 words) p = Some (Some (key_of m))).
    { intros p m Hp Hm E. rewrite Kw, nth_error_map, (Wp p Hp). cbn [option_map]. rewrite E. unfold key_of. do 3 f_equal. apply nth_error_nth. apply Nodes, Hm. }
    assert (Win : forall m o t, In m (subtrees root) -> In (o, t) (nth (Z.to_nat (n_ind m)) wc []) <-> In (o, t) (links root (n_ind m))) by (intros m o t Hm; apply (@word_in root (List.length tokens) wc Td WL); exact Hm).
    assert (Rng : forall m, In m (subtrees root) -> (0 <= n_ind m < Z.of_nat (List.length tokens))%Z) by (intros m Hm; destruct Td as [_ R]; apply R; now apply in_map).
    assert (Tyw : forall p m o t k, p < N -> In m (subtrees root) -> wd p = (n_ind m, o, k) -> In (o, t) (links root (n_ind m)) -> nth_error (cods wc) p = nth_error t k).
    { intros p m o t k Hp Hm E I. assert (Ew' := Wp p Hp). rewrite E in Ew'. destruct (wires_ty Ew') as (j & t' & Ej & Lj & It & Kt & Et). cbn [Z.add] in Ej. rewrite Et. rewrite Ej in I. f_equal. assert (Lj' : j < List.length tokens) by (rewrite <- Lw; exact Lj). apply (@word_one root (List.length tokens) wc Lw WL j o t' t Lj' It). apply (@in_word root (List.length tokens) wc WL); [exact Lj' | exact I]. }
    assert (Hpos : forall m, In m (subtrees root) -> exists L, look (typ_lists (keys_from 0 words)) (key_of m) = Ok L /\ map wd L = word_wires (n_ind m) (nth (Z.to_nat (n_ind m)) wc []) /\ Forall (fun p => p < N) L).
    { intros m Hm. assert (Rm := Rng m Hm). set (F := filter (fun p => okey_eqb (nth p (keys_from 0 words) None) (Some (key_of m))) (seq 0 (List.length (keys_from 0 words)))).
      assert (Lk0 : List.length (keys_from 0 words) = N) by (rewrite Kw, map_length; reflexivity).
      assert (EF : F = filter (fun p => (fst (fst (wd p)) =? n_ind m)%Z) (seq 0 N)).
      { unfold F. rewrite Lk0. apply filter_ext_in. intros p Hp. apply in_seq in Hp. rewrite Kw. rewrite (nth_indep _ None (Some (EmptyString, 0))) by (rewrite map_length; fold N; lia). erewrite nth_error_nth; [|rewrite nth_error_map, (Wp p) by lia; reflexivity]. cbn [okey_eqb]. apply eq_true_iff_eq. rewrite wkey_eqb_iff, Z.eqb_eq. unfold key_of.
        assert (R0 : (0 <= fst (fst (wd p)))%Z). { assert (Hw := nth_error_In _ _ (Wp p ltac:(lia))). unfold W, wires in Hw. destruct (wires_in Hw) as (j & _ & Hj). destruct (word_wires_in Hj) as (o & t & k & -> & _). cbn [fst]. lia. }
        split; [intros [= _ E]; lia | intros ->]. f_equal. apply nth_error_nth. apply Nodes, Hm. }
      assert (MF : map wd F = word_wires (n_ind m) (nth (Z.to_nat (n_ind m)) wc [])). { rewrite EF. etransitivity; [symmetry; exact (filter_map_comm wd (fun w : wire => (fst (fst w) =? n_ind m)%Z) (seq 0 N))|]. rewrite <- Ew. assert (G := @wires_filter wc 0%Z (Z.to_nat (n_ind m)) ltac:(lia)). cbn [Z.add] in G. rewrite Z2Nat.id in G by lia. exact G. }
      exists F. split; [|split; [exact MF | rewrite EF; apply Forall_forall; intros p Hp; apply filter_In in Hp; destruct Hp as [Hp _]; apply in_seq in Hp; lia]]. unfold look. rewrite typ_lists_get. fold F.
      destruct F as [|f0 F]; [|reflexivity]. exfalso. assert (Own : exists o, In (o, n_typ m) (nth (Z.to_nat (n_ind m)) wc [])).
      { assert (I : In (n_ind m) (inds root)) by now apply in_map. apply (Permutation_in _ (inds_arcs root)) in I. destruct I as [I|I].
        - exists (-1)%Z. apply Win; [exact Hm|]. assert (root = m) as <- by (apply (uniq Td); auto). apply links_root.
        - apply in_map_iff in I. destruct I as ([p c] & Ec & I). unfold cind in Ec. cbn [snd] in Ec. destruct (arc_facts Td I) as (_ & Sc & _). assert (c = m) as <- by (apply (uniq Td); auto). exists (n_ind p). apply Win; [exact Hm|]. exact (links_c I). }
      destruct Own as (o & Io). cbn [map] in MF. assert (X : In (n_ind m, o, 0) (word_wires (n_ind m) (nth (Z.to_nat (n_ind m)) wc []))); [|rewrite <- MF in X; destruct X]. unfold word_wires. apply in_concat. eexists. split; [exact (in_map (part_wires (n_ind m)) _ _ Io)|]. unfold part_wires. cbn [fst snd]. apply in_map_iff. exists 0. split; [reflexivity|]. apply in_seq. assert (Y := Ne m Hm). destruct (n_typ m); [congruence | cbn; lia]. }
    assert (Pj := joins_perm J0). assert (Ndj : NoDup (flat2 C0 ++ free)) by (apply (Permutation_NoDup (Permutation_sym Pj)), seq_NoDup).
    assert (HC0 : Permutation (map (fun b => (wd (fst b), wd (snd b))) C0) (List.concat (map arc_pairs (arcs root)))) by (rewrite <- Pp; apply Permutation_refl' ; exact Eps).
    assert (HCN : forall b, In b C0 -> fst b < N /\ snd b < N). { intros b Hb. destruct (flat2_in Hb) as [I1 I2]. split; [apply (or_introl (B := In (fst b) free)), in_or_app, (Permutation_in _ Pj), in_seq in I1 | apply (or_introl (B := In (snd b) free)), in_or_app, (Permutation_in _ Pj), in_seq in I2]; lia. }
    assert (HfN : forall p, In p free -> p < N) by (intros p Hp; apply (joins_rem J0), in_seq in Hp; lia).
    assert (Hfree : forall p, In p free -> exists k, wd p = (n_ind root, (-1)%Z, k) /\ k < List.length (n_typ root)). { intros p Hp. assert (I := in_map wd _ _ Hp). rewrite Efr in I. unfold part_wires in I. cbn [fst snd] in I. apply in_map_iff in I. destruct I as (k & Ek & Hk). apply in_seq in Hk. exists k. split; [congruence | lia]. }
    assert (Hty : forall p m c k, p < N -> In (m, c) (arcs root) -> wd p = (n_ind c, n_ind m, k) -> k < List.length (n_typ c) -> nth_error (flat_map snd words) p = nth_error (n_typ c) k).
    { intros p m c k Hp A E Lk0. rewrite Wc. destruct (arc_facts Td A) as (_ & Sc & _). apply (Tyw p c (n_ind m)); auto. exact (links_c A). }
    destruct (Hpos root Sr) as (L & EL & ML & FL).
    assert (Fin : forall p, In p free -> In p L). { intros p Hp. destruct (Hfree p Hp) as (k & Ek & Lk0). assert (I : In (wd p) (map wd L)). { rewrite ML, Ek. unfold word_wires. apply in_concat. eexists. split; [exact (in_map (part_wires (n_ind root)) _ _ (proj2 (Win root _ _ Sr) (links_root root)))|]. unfold part_wires. cbn [fst snd]. apply in_map_iff. exists k. split; [reflexivity | apply in_seq; lia]. }
      apply in_map_iff in I. destruct I as (q & Eq & Hq). rewrite Forall_forall in FL. assert (q = p) as <- by (apply Hinj; auto). exact Hq. }
    assert (Fwb : forall p, In p free -> list_get (keys_from 0 words) p = Ok (Some (key_of root))). { intros p Hp. unfold list_get. rewrite (Hwb p root); [reflexivity | auto | exact Sr|]. destruct (Hfree p Hp) as (k & -> & _). reflexivity. }
    assert (Fty : exists f, (forall p, In p free -> list_get (flat_map snd words) p = Ok (f p)) /\ map f free = n_typ root).
    { exists (fun p => nth p (cods wc) (EmptyString, 0%Z)). assert (G : forall p k, In p free -> wd p = (n_ind root, (-1)%Z, k) -> nth_error (cods wc) p = nth_error (n_typ root) k) by (intros p k Hp E; apply (Tyw p root (-1)%Z); auto; apply links_root). split.
      - intros p Hp. unfold list_get. rewrite Wc. rewrite (nth_error_nth' (cods wc) (EmptyString, 0%Z)); [reflexivity|]. rewrite <- Wl. auto.
      - rewrite <- (map_nth_seq (n_typ root) (EmptyString, 0%Z)). unfold part_wires in Efr. cbn [fst snd] in Efr. revert Efr G. clear. generalize (seq 0 (List.length (n_typ root))). induction free as [|p free IH]; intros [|k ks] E G; try discriminate; [reflexivity|]. cbn [map] in *. injection E as E1 E2. f_equal; [|apply IH; [exact E2 | intros; apply G; auto; now right]]. assert (X := G p k (or_introl eq_refl) E1). rewrite <- !nth_default_eq. unfold nth_default. now rewrite X. }
    destruct Fty as (fty & Fty1 & Fty2). destruct (drop_free free L) as (tix & Et & Mt).
    unfold construct_tree. destruct free as [|f0 free0]; [congruence|]. set (free := f0 :: free0) in *. rewrite (Fty1 f0 (or_introl eq_refl)). cbn [rmap bind]. rewrite (Fwb f0 (or_introl eq_refl)). cbn [bind]. rewrite EL. cbn [bind List.tl free].
    assert (Et0 : forall l t, (forall p, In p l -> In p free) -> foldM (fun t i => if existsb (Nat.eqb i) L then rmap (fun a => t ++ [a]) (list_get (flat_map snd words) i) else Ok t) l t = Ok (t ++ map fty l)).
    { induction l as [|p l IHl]; intros t Sub; [cbn; now rewrite app_nil_r|]. cbn [foldM map]. assert (X : existsb (Nat.eqb p) L = true) by (apply existsb_exists; exists p; split; [apply Fin, Sub; now left | apply Nat.eqb_refl]). rewrite X, (Fty1 p) by (apply Sub; now left). cbn [rmap bind]. rewrite IHl by (intros; apply Sub; now right). now rewrite <- app_assoc. }
    rewrite Et0 by (intros p Hp; now right). cbn [bind app]. change (fty f0 :: map fty free0) with (map fty free). rewrite Fty2. fold free. rewrite Et. cbn [bind]. rewrite (@mapM_ok _ _ (list_get (keys_from 0 words)) (fun _ => Some (key_of root)) free) by exact Fwb. cbn [bind map free].
    assert (Ok1 : forallb (okey_eqb (Some (key_of root))) (map (fun _ : nat => Some (key_of root)) free0) = true). { apply forallb_forall. intros o Ho. apply in_map_iff in Ho. destruct Ho as (? & <- & _). cbn. now apply wkey_eqb_iff. }
    rewrite Ok1. cbn [bind]. fold free. rewrite Hcup, map_map. replace (map (fun x => let '(_, a, b) := acup x in (a, b)) C0) with C0 by (symmetry; rewrite <- (map_id C0) at 2; apply map_ext; now intros [a b]).
    destruct (@build_ok root (List.length tokens) wc N wd (keys_from 0 words) (flat_map snd words) (typ_lists (keys_from 0 words)) free C0 Td WL Ne Hinj Hwb Hty Hpos HC0 HCN ltac:(intros p Hp; destruct (Hfree p Hp) as (k & E & _); eauto) (S (List.length C0)) root tix None C0 Sr) as (cups' & Eb & _).
    + apply le_n_S. assert (X := arcs_le Ne (l := arcs root) ltac:(auto)). rewrite <- (Permutation_length HC0), map_length in X. exact X.
    + exact Lk.
    + apply flat2_nodup. exact (NoDup_app_remove_r Ndj).
    + intros b Hb. exact Hb.
    + auto.
    + intros p Hp. exfalso. exact (root_no_head Td Hp eq_refl).
    + intros c p k A Hp E Lk0. apply Mt.
      * intros I. destruct (Hfree p I) as (k' & E' & _). rewrite E in E'. injection E' as E' _. destruct (arc_facts Td A) as (_ & _ & _ & _ & Rc & _). lia.
      * assert (I : In (wd p) (map wd L)). { rewrite ML, E. unfold word_wires. apply in_concat. eexists. split; [exact (in_map (part_wires (n_ind root)) _ _ (proj2 (Win root _ _ Sr) (links_p A)))|]. unfold part_wires. cbn [fst snd]. apply in_map_iff. exists k. split; [reflexivity | apply in_seq]. destruct (n_ind c <? n_ind root)%Z; rewrite rot_length; lia. }
        apply in_map_iff in I. destruct I as (q & Eq & Hq). rewrite Forall_forall in FL. assert (q = p) as <- by (apply Hinj; auto). exact Hq.
    + rewrite Eb. reflexivity.
Qed.
Lemma canon_idem n : canon (canon n) = canon n.
Proof.
  induction n as [w i t p cs IH] using node_rec. cbn [canon]. f_equal. assert (E : map canon (sort_ind (map canon cs)) = sort_ind (map canon cs)).
  { rewrite sort_ind_map by apply canon_ind. destruct (sort_ind_spec (map canon cs)) as (S1 & P1 & _). rewrite (map_ext_in canon (fun x => x)). 2: { intros x Hx. apply in_map_iff in Hx. destruct Hx as (c & <- & Hc). rewrite Forall_forall in IH. now apply IH. } now rewrite map_id. }
  rewrite E. destruct (sort_ind_spec (map canon cs)) as (S1 & _ & _). destruct (sort_ind_spec (sort_ind (map canon cs))) as (S2 & _ & F2). apply sorted_unique; [exact S2 | exact S1 | exact F2].
Qed.
