(** Pruning of nouns, and the whole of [text2circuit] (C71, lemmas only). *)
From Coq Require Import Permutation Sorted.
From Verif Require Import PyBase PyFacts TyModel TyFacts DiagModel DiagSpec DiagFacts DiagMisc MiscModel MiscSpec MiscFacts TreeModel TreeSpec TreeFacts TreeRew CircModel CircSpec CircPerm CircRun CircMatch CircStep CircFrames CircSand CircWord CircSlots CircText CircPrep.
Close Scope string_scope. Set Implicit Arguments. Unset Strict Implicit.

Lemma get_index_some s w j : get_index s w = Some j <-> nth_error s j = Some w /\ forall k, k < j -> nth_error s k <> Some w.
Proof.
  revert j. induction s as [|v s IH]; intros j; cbn [get_index].
  - split; [discriminate | intros [H _]; now destruct j].
  - destruct (String.eqb_spec v w) as [->|Ne].
    + split; [intros [= <-]; split; [reflexivity | lia]|]. intros [H F]. destruct j as [|j]; [reflexivity|]. exfalso. apply (F 0); [lia | reflexivity].
    + destruct j as [|j]; [split; [destruct (get_index s w); discriminate | intros [[= ->] _]; congruence]|]. assert (E : option_map S (get_index s w) = Some (S j) <-> get_index s w = Some j) by (destruct (get_index s w); cbn; split; congruence). rewrite E, IH. cbn [nth_error]. split; intros [A B]; (split; [exact A|]).
      * intros [|k] Hk; [cbn; congruence|]. apply B. lia.
      * intros k Hk. apply (B (S k)). lia.
Qed.
Lemma get_index_none s w : get_index s w = None <-> ~ In w s.
Proof. induction s as [|v s IH]; cbn; [tauto|]. destruct (String.eqb_spec v w) as [->|Ne]; [split; [discriminate | tauto]|]. destruct (get_index s w); cbn; [split; [discriminate|]; intros H; exfalso; apply H; right; apply Decidable.not_not; [|intros X; apply IH in X; discriminate]; unfold Decidable.decidable; destruct (in_dec string_dec w s); tauto|]. split; [|reflexivity]. intros _ [X | X]; [congruence|]. now apply IH. Qed.
Lemma first_in_some sents w a b : forall i, first_in i sents w = Some (a, b) <-> i <= a /\ first_occurrence sents w (a - i) b.
Proof.
  induction sents as [|s ss IH]; intros i; cbn [first_in].
  - split; [discriminate|]. intros (_ & (s & H & _) & _). now destruct (a - i).
  - destruct (get_index s w) as [j|] eqn:E.
    + apply get_index_some in E. destruct E as [E1 E2]. split.
      * intros [= <- <-]. split; [lia|]. rewrite Nat.sub_diag. split; [exists s; auto | lia].
      * intros (L & (s' & H1 & H2 & H3) & H4). destruct (a - i) as [|k] eqn:Ek; [|exfalso; apply (H4 0 s); [lia | reflexivity | eapply nth_error_In; exact E1]]. cbn in H1. injection H1 as <-. assert (a = i) by lia. subst a. f_equal. f_equal.
        destruct (Nat.lt_trichotomy j b) as [Q | [Q | Q]]; [exfalso; now apply (H3 j) | exact Q | exfalso; now apply (E2 b)].
    + rewrite IH. apply get_index_none in E. split; intros (L & (s' & H1 & H2 & H3) & H4).
      * split; [lia|]. destruct (a - i) as [|k] eqn:Ek; [lia|]. assert (a - S i = k) by lia. rewrite H in *. split; [exists s'; auto|]. intros [|m] s0 Hm; cbn; [intros [= <-]; exact E | apply H4; lia].
      * destruct (a - i) as [|k] eqn:Ek; [exfalso; cbn in H1; injection H1 as <-; apply E; eapply nth_error_In; exact H2|]. split; [lia|]. assert (a - S i = k) by lia. rewrite H. split; [exists s'; auto|]. intros m s0 Hm Hs. apply (H4 (S m) s0); [lia | exact Hs].
Qed.
Lemma first_in_occ sents w a b : first_in 0 sents w = Some (a, b) <-> first_occurrence sents w a b.
Proof. rewrite first_in_some, Nat.sub_0_r. split; [tauto | intros H; split; [lia | exact H]]. Qed.
(** membership in a list of lists *)
Definition at_ {A} (P : list (list A)) (i : nat) (j : A) : Prop := exists l, nth_error P i = Some l /\ In j l.
Lemma push_ok A (P : list (list A)) : forall i x, i < List.length P -> exists P', push i x P = Ok P' /\ List.length P' = List.length P /\ forall k j, at_ P' k j <-> at_ P k j \/ (k, j) = (i, x).
Proof.
  induction P as [|b P IH]; intros i x L; cbn in L; [lia|]. destruct i as [|i]; cbn [push].
  - eexists. split; [reflexivity|]. split; [reflexivity|]. intros k j. unfold at_. destruct k as [|k]; cbn [nth_error]; [|split; [intros H; now left | intros [H | [=]]; exact H]].
    split; [intros (l & [= <-] & I); apply in_app_or in I; destruct I as [I | [-> | []]]; [left; eauto | now right]|]. intros [(l & [= <-] & I) | [= ->]]; eexists; (split; [reflexivity|]); apply in_or_app; [now left | right; now left].
  - destruct (IH i x) as (P' & E & L' & H); [lia|]. rewrite E. eexists. split; [reflexivity|]. split; [cbn; lia|]. intros k j. destruct k as [|k]; [unfold at_; cbn; split; [intros X; now left | intros [X | [=]]; exact X]|]. unfold at_ in *. cbn [nth_error]. rewrite H. split; intros [X | X]; auto; right; congruence.
Qed.
Lemma cluster_fold i (c : list (list nat)) : forall o acc, o + List.length c <= List.length acc -> exists P', foldM (fun acc '(h, hw) => match hw with x :: _ => if negb (h =? i)%nat then push h x acc else Ok acc | [] => Ok acc end) (combine (seq o (List.length c)) c) acc = Ok P' /\ List.length P' = List.length acc /\
  forall k j, at_ P' k j <-> at_ acc k j \/ (o <= k /\ k <> i /\ exists more, nth_error c (k - o) = Some (j :: more)).
Proof.
  induction c as [|hw c IH]; intros o acc L; cbn [List.length seq combine foldM].
  - exists acc. split; [reflexivity|]. split; [reflexivity|]. intros k j. split; [now left|]. intros [H | (_ & _ & more & H)]; [exact H | now destruct (k - o)].
  - cbn [List.length] in L. set (step := match hw with x :: _ => if negb (o =? i)%nat then push o x acc else Ok acc | [] => Ok acc end).
    assert (St : exists P1, step = Ok P1 /\ List.length P1 = List.length acc /\ forall k j, at_ P1 k j <-> at_ acc k j \/ (k = o /\ k <> i /\ exists more, hw = j :: more)).
    { unfold step. destruct hw as [|x hw]; [exists acc; repeat split; auto; intros [H | (_ & _ & more & [=])]; exact H|]. destruct (Nat.eqb_spec o i) as [->|Ne]; cbn [negb].
      - exists acc. repeat split; auto. intros [H | (-> & H & _)]; [exact H | congruence].
      - destruct (@push_ok _ acc o x) as (P1 & E & L1 & H1); [lia|]. exists P1. split; [exact E|]. split; [exact L1|]. intros k j. rewrite H1. split; intros [H | H]; auto; right; [injection H as -> ->; eauto | destruct H as (-> & _ & more & [= -> _]); reflexivity]. }
    destruct St as (P1 & E1 & L1 & H1). rewrite E1. cbn [bind]. destruct (IH (S o) P1) as (P' & E & L' & H); [lia|]. exists P'. split; [exact E|]. split; [lia|]. intros k j. rewrite H, H1. split.
    + intros [[X | (-> & Hi & more & ->)] | (Lk & Hi & more & X)]; [now left | right; split; [lia|]; split; [exact Hi|]; rewrite Nat.sub_diag; cbn; eauto | right; split; [lia|]; split; [exact Hi|]; replace (k - o) with (S (k - S o)) by lia; cbn; eauto].
    + intros [X | (Lk & Hi & more & X)]; [auto|]. destruct (Nat.eq_dec k o) as [->|Ne]; [left; right; rewrite Nat.sub_diag in X; cbn in X; injection X as ->; eauto|]. right. split; [lia|]. split; [exact Hi|]. replace (k - o) with (S (k - S o)) in X by lia. cbn in X. eauto.
Qed.
Lemma prune_corefs_ok a b corefs acc : (forall c, In c corefs -> List.length c = List.length acc) -> a < List.length acc -> exists P', prune_corefs a b corefs acc = Ok P' /\ List.length P' = List.length acc /\
  forall i j, at_ P' i j <-> at_ acc i j \/ exists pre c post more, corefs = pre ++ c :: post /\ mentions c (a, b) /\ (forall p, In p pre -> ~ mentions p (a, b)) /\ i <> a /\ nth_error c i = Some (j :: more).
Proof.
  intros Hl Ha. induction corefs as [|c corefs IH]; cbn [prune_corefs].
  - exists acc. repeat split; auto. intros [H | (pre & c & post & more & E & _)]; [exact H | now destruct pre].
  - assert (Lc := Hl c (or_introl eq_refl)). destruct (nth_error c a) as [m|] eqn:Em; [|apply nth_error_None in Em; lia]. destruct (existsb (Nat.eqb b) m) eqn:Ex.
    + assert (Mc : mentions c (a, b)) by (exists m; split; [exact Em|]; apply existsb_exists in Ex; destruct Ex as (x & Hx & ->%Nat.eqb_eq); exact Hx).
      destruct (@cluster_fold a c 0 acc) as (P' & E & L' & H); [lia|]. exists P'. split; [exact E|]. split; [exact L'|]. intros i j. rewrite H. split; intros [X | X]; auto; right.
      * destruct X as (_ & Hi & more & X). rewrite Nat.sub_0_r in X. exists [], c, corefs, more. split; [reflexivity|]. split; [exact Mc|]. split; [intros p []|]. auto.
      * destruct X as (pre & c' & post & more & E' & M' & N' & Hi & X). destruct pre as [|p pre]; [|exfalso; injection E' as -> ->; apply (N' p); [now left | exact Mc]]. injection E' as -> ->. split; [lia|]. split; [exact Hi|]. rewrite Nat.sub_0_r. eauto.
    + assert (Nc : ~ mentions c (a, b)). { intros (ts & E & I). cbn in E, I. rewrite Em in E. injection E as ->. enough (existsb (Nat.eqb b) ts = true) by congruence. apply existsb_exists. exists b. split; [exact I | apply Nat.eqb_refl]. }
      destruct IH as (P' & E & L' & H); [intros; apply Hl; now right|]. exists P'. split; [exact E|]. split; [exact L'|]. intros i j. rewrite H. split; intros [X | X]; auto; right; destruct X as (pre & c' & post & more & E' & M' & N' & X).
      * exists (c :: pre), c', post, more. split; [now rewrite E'|]. split; [exact M'|]. split; [intros p [<- | Hp]; auto | exact X].
      * destruct pre as [|p pre]; [injection E' as -> ->; contradiction|]. injection E' as -> ->. exists pre, c', post, more. split; [reflexivity|]. split; [exact M'|]. split; [intros q Hq; apply N'; now right | exact X].
Qed.
Lemma at_repeat A n i (j : A) : ~ at_ (repeat [] n) i j.
Proof. intros (l & H & I). apply nth_error_In in H. apply repeat_spec in H. subst l. exact I. Qed.
Lemma prune_ok sents corefs ws : (forall c, In c corefs -> List.length c = List.length sents) -> exists P, prune_indices sents corefs ws = Ok P /\ List.length P = List.length sents /\ forall i j, at_ P i j <-> exists w, In w ws /\ pruned_by sents corefs w i j.
Proof.
  intros Hl. unfold prune_indices. set (f := fun acc '(i, j) => do acc' <- push i j acc; prune_corefs i j corefs acc').
  assert (G : forall ws acc, List.length acc = List.length sents -> exists P, foldM f (List.concat (map (fun w => match first_in 0 sents w with Some x => [x] | None => [] end) ws)) acc = Ok P /\ List.length P = List.length sents /\ forall i j, at_ P i j <-> at_ acc i j \/ exists w, In w ws /\ pruned_by sents corefs w i j).
  { clear ws. induction ws as [|w ws IH]; intros acc La; [exists acc; repeat split; auto; intros [H | (w & [] & _)]; exact H|]. cbn [map List.concat]. destruct (first_in 0 sents w) as [[a b]|] eqn:E.
    - cbn [app foldM]. unfold f at 1. assert (F := proj1 (@first_in_occ sents w a b) E). assert (La' : a < List.length acc) by (destruct F as ((s & Hs & _) & _); rewrite La; apply nth_error_Some; congruence).
      destruct (@push_ok _ acc a b La') as (P1 & E1 & L1 & H1). rewrite E1. cbn [bind]. destruct (@prune_corefs_ok a b corefs P1) as (P2 & E2 & L2 & H2); [intros c Hc; rewrite Hl by exact Hc; congruence | lia|]. rewrite E2. cbn [bind].
      destruct (IH P2) as (P & EP & LP & HP); [congruence|]. exists P. split; [exact EP|]. split; [exact LP|]. intros i j. rewrite HP, H2, H1. split.
      + intros [[[X | X] | X] | (w' & I & X)]; [now left | right; exists w; split; [now left | exists a, b; auto] | right; exists w; split; [now left | exists a, b; auto] | right; exists w'; split; [now right | exact X]].
      + intros [X | (w' & [<- | I] & X)]; [auto | | right; eauto]. destruct X as (a' & b' & F' & X). apply first_in_occ in F'. rewrite E in F'. injection F' as <- <-. destruct X as [X | X]; auto.
    - cbn [app]. destruct (IH acc La) as (P & EP & LP & HP). exists P. split; [exact EP|]. split; [exact LP|]. intros i j. rewrite HP. split; intros [X | (w' & I & X)]; auto; right.
      + exists w'. split; [now right | exact X].
      + destruct I as [<- | I]; [|eauto]. destruct X as (a & b & F & _). apply first_in_occ in F. congruence. }
  destruct (G ws (repeat [] (List.length sents)) (repeat_length _ _)) as (P & E & L & H). exists P. split; [exact E|]. split; [exact L|]. intros i j. rewrite H. split; [intros [X | X]; [now apply at_repeat in X | exact X] | auto].
Qed.
(** ** rare nouns *)
Lemma count_spec (d : list (mention * mention)) : NoDup (map fst (count_values d)) /\ forall r, d_get mention_eqb r (count_values d) = match List.length (filter (fun p => mention_eqb (snd p) r) d) with O => None | n => Some n end.
Proof.
  unfold count_values. induction d as [|p d IH] using rev_ind; [split; [constructor | reflexivity]|]. rewrite fold_left_app. cbn [fold_left]. set (acc := fold_left _ d []) in *. destruct IH as [N IH]. split; [destruct (d_get _ _ _); now apply (d_set_keys mention_eqb_ok)|].
  intros r. rewrite filter_app, app_length. cbn [filter]. assert (S1 : forall k, d_get mention_eqb r (d_set mention_eqb (snd p) k acc) = if mention_eqb (snd p) r then Some k else d_get mention_eqb r acc) by (intros k; apply (d_get_set mention_eqb_ok)).
  assert (I1 := IH (snd p)). destruct (d_get mention_eqb (snd p) acc) as [k|]; rewrite S1; destruct (mention_eqb (snd p) r) eqn:B.
  - apply mention_eqb_ok in B. subst r. cbn [List.length]. rewrite Nat.add_1_r. destruct (List.length _); [discriminate|]. injection I1 as ->. reflexivity.
  - cbn [List.length]. rewrite Nat.add_0_r. apply IH.
  - apply mention_eqb_ok in B. subst r. cbn [List.length]. rewrite Nat.add_1_r. destruct (List.length _); [reflexivity | discriminate].
  - cbn [List.length]. rewrite Nat.add_0_r. apply IH.
Qed.
Lemma refers_get corefs m r : refers corefs m r <-> d_get mention_eqb m (dict_from_corefs corefs) = Some r.
Proof. symmetry. apply MiscFacts.dict_get. Qed.
Lemma nodup_filter A B (f : A * B -> bool) l : NoDup (map fst l) -> NoDup (map fst (filter f l)).
Proof. induction l as [|[a b] l IH]; intros N; [constructor|]. inversion N as [|? ? Na N']; subst. cbn [filter]. destruct (f (a, b)); [|now apply IH]. cbn [map fst]. constructor; [|now apply IH]. intros I. apply Na. apply in_map_iff in I. destruct I as ([a' b'] & E & I). apply filter_In in I. apply in_map_iff. exists (a', b'). tauto. Qed.
Lemma rare_ok corefs min r : In r (map fst (filter (fun p => (Z.of_nat (snd p) <? min)%Z) (count_values (dict_from_corefs corefs)))) <-> rare corefs min r.
Proof.
  destruct (count_spec (dict_from_corefs corefs)) as [N C]. rewrite in_map_iff. set (ms := map fst (filter (fun p => mention_eqb (snd p) r) (dict_from_corefs corefs))).
  assert (Nm : NoDup ms) by (apply nodup_filter, dict_nodup).
  assert (Im : forall m, In m ms <-> refers corefs m r).
  { intros m. rewrite refers_get. unfold ms. rewrite in_map_iff. split.
    - intros ([a b] & <- & I). apply filter_In in I. destruct I as [I E]. apply mention_eqb_ok in E. cbn in E |- *. subst b. now apply (d_in_get mention_eqb_ok (dict_nodup corefs)).
    - intros H. apply (d_get_in mention_eqb_ok) in H. exists (m, r). split; [reflexivity|]. apply filter_In. split; [exact H | now apply mention_eqb_ok]. }
  specialize (C r). replace (List.length (filter _ _)) with (List.length ms) in C by (unfold ms; apply map_length). split.
  - intros ([r' k] & E & I). cbn in E. subst r'. apply filter_In in I. destruct I as [I J]. cbn in J. apply (d_in_get mention_eqb_ok N) in I. rewrite C in I. exists ms. split; [exact Nm|]. destruct ms; [discriminate|]. split; [discriminate|]. split; [exact Im|]. injection I as <-. now apply Z.ltb_lt.
  - intros (ms' & N' & Ne & I' & L). assert (P : Permutation ms' ms) by (apply NoDup_Permutation; auto; intros m; rewrite I'; symmetry; apply Im). apply Permutation_length in P. exists (r, List.length ms). split; [reflexivity|]. apply filter_In. split; [|apply Z.ltb_lt; cbn [snd]; refine (eq_ind _ (fun k => (Z.of_nat k < min)%Z) L _ P)]. apply (d_get_in mention_eqb_ok). rewrite C. destruct ms; [destruct ms'; [congruence | discriminate] | reflexivity].
Qed.
Lemma all_pruned_ok sents corefs ws min : (forall c, In c corefs -> List.length c = List.length sents) -> (forall c m, In c corefs -> mentions c m -> exists w, word_at sents m w) ->
  exists P, all_pruned sents corefs ws min = Ok P /\ List.length P = List.length sents /\ forall i j, at_ P i j <-> exists w, dropped sents corefs ws min w /\ pruned_by sents corefs w i j.
Proof.
  intros Hl Hm. unfold all_pruned. set (rs := map fst _). assert (Hr : forall r, In r rs <-> rare corefs min r) by (intros; apply rare_ok). clearbody rs.
  assert (Hv : forall r, In r rs -> exists w, word_at sents r w). { intros r I. apply Hr in I. destruct I as ([|m ms] & _ & Ne & H & _); [congruence|]. destruct (proj1 (H m) (or_introl eq_refl)) as (pre & c & post & E & _ & _ & (more & F & _)). apply (Hm c); [rewrite E; apply in_or_app; right; now left|]. eexists. split; [exact F | now left]. }
  assert (M : exists vs, mapM (fun m : mention => match nth_error sents (fst m) with Some s => match nth_error s (snd m) with Some w => Ok w | None => Err IndexError end | None => Err IndexError end) rs = Ok vs /\ forall w, In w vs <-> exists r, In r rs /\ word_at sents r w).
  { clear Hr. induction rs as [|r rs IH]; [exists []; split; [reflexivity|]; intros w; split; [intros [] | intros (r & [] & _)]|]. destruct (Hv r (or_introl eq_refl)) as (w & s & E1 & E2). destruct IH as (vs & E & H); [intros; apply Hv; now right|]. exists (w :: vs). cbn [mapM]. rewrite E1, E2. cbn [bind]. rewrite E. cbn [bind]. split; [reflexivity|].
    intros w'. cbn [In]. rewrite H. split; [intros [<- | (r' & I & X)]; [exists r; split; [now left | exists s; auto] | exists r'; auto]|]. intros (r' & [<- | I] & X); [left | right; eauto]. destruct X as (s' & X1 & X2). rewrite E1 in X1. injection X1 as <-. congruence. }
  destruct M as (vs & E & H). rewrite E. cbn [bind]. destruct (@prune_ok sents corefs (ws ++ vs) Hl) as (P & EP & LP & HP). exists P. split; [exact EP|]. split; [exact LP|]. intros i j. rewrite HP. split; intros (w & I & X); exists w; (split; [|exact X]).
  - apply in_app_or in I. destruct I as [I | I]; [now left | right]. apply H in I. destruct I as (r & I & Y). exists r. split; [now apply Hr | exact Y].
  - apply in_or_app. destruct I as [I | (r & I & Y)]; [now left | right]. apply H. exists r. split; [now apply Hr | exact Y].
Qed.
