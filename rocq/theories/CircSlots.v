(** The noun slots of a sandwich (C71, lemmas only). *)
From Coq Require Import Permutation Sorted.
From Verif Require Import PyBase PyFacts TyModel TyFacts DiagModel DiagSpec DiagFacts MiscModel TreeModel TreeSpec TreeFacts CircModel CircSpec CircPerm CircRun CircMatch CircStep CircFrames CircSand CircWord.
Close Scope string_scope. Set Implicit Arguments. Unset Strict Implicit.

Notation same := opt_eqb.
Lemma same_ok a b : same a b = true <-> a = b.
Proof. exact (oZ_ok a b). Qed.
Notation ip := (option Z * box)%type.
Definition but (prev : option Z) (p : ip) : bool := negb (same (fst p) prev).
Definition out (known : list (option Z)) (p : ip) : bool := negb (mem same (fst p) known).
Lemma news_app (known : list (option Z)) (a b : list ip) : news same known (a ++ b) = news same known a ++ news same (known ++ map fst (news same known a)) b.
Proof.
  revert known. induction a as [|[e x] a IH]; intros known; [cbn; now rewrite app_nil_r|]. cbn [app news]. destruct (mem same e known); [apply IH|]. rewrite IH. cbn [map fst app]. now rewrite <- app_assoc.
Qed.
Lemma filter_filter A (f g : A -> bool) l : filter f (filter g l) = filter (fun x => g x && f x) l.
Proof. induction l as [|x l IH]; [reflexivity|]. cbn. destruct (g x); cbn; [destruct (f x)|]; now rewrite IH. Qed.
Lemma mem_app e (a b : list (option Z)) : mem same e (a ++ b) = mem same e a || mem same e b.
Proof. unfold mem. apply existsb_app. Qed.
Lemma news_ext known (l : list ip) : forall acc acc', (forall e, mem same e known = false -> mem same e acc = mem same e acc') -> filter (out known) (news same acc l) = filter (out known) (news same acc' l).
Proof.
  induction l as [|[e x] l IH]; intros acc acc' H; [reflexivity|]. cbn [news]. destruct (mem same e known) eqn:Kn.
  - assert (D : forall a, filter (out known) (if mem same e a then news same a l else (e, x) :: news same (a ++ [e]) l) = filter (out known) (news same a l)).
    { intros a. destruct (mem same e a); [reflexivity|]. cbn [filter]. unfold out at 1. cbn [fst]. rewrite Kn. cbn [negb]. apply IH. intros e' He'. rewrite mem_app. cbn [mem existsb]. destruct (same e e') eqn:E; [apply same_ok in E; subst; congruence | now rewrite !orb_false_r]. }
    rewrite !D. now apply IH.
  - rewrite <- (H e Kn). destruct (mem same e acc); [now apply IH|]. cbn [filter]. assert (O : out known (e, x) = true) by (unfold out; cbn [fst]; now rewrite Kn). rewrite !O. f_equal. apply IH. intros e' He'. rewrite !mem_app. now rewrite (H e' He').
Qed.
(** what is new is new relative to nothing, minus the known *)
Lemma news_known known (l : list ip) : forall acc, news same (known ++ acc) l = filter (out known) (news same acc l).
Proof.
  induction l as [|[e x] l IH]; intros acc; [reflexivity|]. cbn [news]. rewrite mem_app. destruct (mem same e acc) eqn:A; [rewrite orb_true_r; apply IH|]. rewrite orb_false_r. cbn [filter]. unfold out at 1. cbn [fst]. destruct (mem same e known) eqn:Kn; cbn [negb].
  - rewrite IH. apply news_ext. intros e' He'. rewrite mem_app. cbn [mem existsb]. destruct (same e e') eqn:E; [apply same_ok in E; subst; congruence | now rewrite !orb_false_r].
  - rewrite <- app_assoc. f_equal. apply IH.
Qed.
Lemma news_distinct (l : list ip) : forall acc, NoDup (acc ++ map fst l) -> news same acc l = l.
Proof.
  induction l as [|[e x] l IH]; intros acc N; [reflexivity|]. cbn [map fst] in N. cbn [news]. assert (M : mem same e acc = false) by (apply (mem_notin same_ok); intros I; apply NoDup_remove_2 in N; apply N, in_or_app; now left). rewrite M. f_equal. apply IH. now rewrite <- app_assoc.
Qed.
Lemma filter_ext_in_ A (f g : A -> bool) l : (forall x, In x l -> f x = g x) -> filter f l = filter g l.
Proof. apply filter_ext_in. Qed.
Definition leaf_pairs (pruned : list Z) (n : node) : list ip := map (fun m => (Some (n_ind m), noun_box m)) (noun_slots pruned n).
(** ** the invariant of a level *)
Section Level.
  Variables (pruned : list Z) (prev : option Z).
  Definition blank (p : ip) : Prop := fst p = None -> prev = None /\ pruned = [] /\ snd p = Box EmptyString [] NOUN 0.
  Definition level (es : list ip) (L : list ip) (cur : option Z) : Prop := filter (but prev) es = filter (but prev) (news same [] L) /\ (cur = prev \/ In cur (map fst es)) /\ Forall blank es /\ Forall (fun p => exists w, snd p = Box w [] [a_n] 0) es.
  Lemma mem_news e (L : list ip) : In e (map fst (news same [] L)) <-> In e (map fst L).
  Proof. split; [|intros I; exact (news_all same_ok [] I)]. intros I. apply in_map_iff in I. destruct I as (p & <- & Hp). apply (news_sub (eqk := same)) in Hp. now apply in_map. Qed.
  Lemma level_keys es L cur e : level es L cur -> e <> prev -> In e (map fst es) <-> In e (map fst (news same [] L)).
  Proof.
    intros (E & _) Ne. assert (G : forall l, In e (map fst l) <-> In e (map fst (filter (but prev) l))). { intros l. rewrite !in_map_iff. split; intros (p & <- & Hp); [|apply filter_In in Hp; exists p; tauto]. exists p. split; [reflexivity|]. apply filter_In. split; [exact Hp|]. unfold but. destruct (same (fst p) prev) eqn:X; [apply same_ok in X; congruence | reflexivity]. }
    rewrite (G es), (G (news same [] L)). now rewrite E.
  Qed.
End Level.
Lemma level_step pruned prev es L cur M Lc cand : level pruned prev es L cur -> level pruned cur M Lc cand -> NoDup (map fst M) -> forall cur', (cur' = cur \/ cur' = cand) -> level pruned prev (es ++ news same (map fst es) M) (L ++ Lc) cur'.
Proof.
  intros H HM N cur' Hc. assert (Ke := fun e => @level_keys pruned prev es L cur e H). destruct H as (E & C & B & X), HM as (EM & CM & BM & XM).
  assert (Sub : forall p, In p (news same (map fst es) M) -> In p M) by (intros p; apply (news_sub (eqk := same))).
  repeat split.
  - rewrite news_app. cbn [app]. rewrite !filter_app, E. f_equal. rewrite <- (app_nil_r (map fst es)), <- (app_nil_r (map fst (news same [] L))). rewrite !news_known, !filter_filter. rewrite (news_distinct (l := M) (acc := [])) by exact N.
    transitivity (filter (fun x => out (map fst es) x && but prev x) (filter (but cur) M)).
    + rewrite filter_filter. apply filter_ext_in. intros p Hp. unfold out, but. destruct (mem same (fst p) (map fst es)) eqn:M1; cbn [negb andb]; [now rewrite andb_false_r|]. destruct (same (fst p) prev) eqn:M2; cbn [negb]; [now rewrite andb_false_r|]. destruct (same (fst p) cur) eqn:M3; [|reflexivity].
      exfalso. apply same_ok in M3. destruct C as [-> | C]; [apply (proj2 (same_ok _ _)) in M3; congruence|]. apply (mem_notin same_ok) in M1. now rewrite M3 in M1.
    + rewrite EM, filter_filter. apply filter_ext_in. intros p Hp. unfold out, but. destruct (same (fst p) prev) eqn:M2; cbn [negb]; [now rewrite !andb_false_r|]. rewrite !andb_true_r.
      assert (Np : fst p <> prev) by (intros Q; apply same_ok in Q; congruence). assert (Q : mem same (fst p) (map fst es) = mem same (fst p) (map fst (news same [] L))). { destruct (mem same (fst p) (map fst es)) eqn:M1; symmetry; [apply (mem_in same_ok), Ke, (mem_in same_ok); auto|]. apply (mem_notin same_ok). intros I. apply Ke in I; [|exact Np]. apply (mem_in same_ok) in I. congruence. }
      rewrite <- Q. destruct (mem same (fst p) (map fst es)) eqn:M1; cbn [negb]; [now rewrite andb_false_r|]. rewrite andb_true_r. destruct (same (fst p) cur) eqn:M3; [|reflexivity]. exfalso. apply same_ok in M3. destruct C as [-> | C]; [congruence|]. apply (mem_notin same_ok) in M1. now rewrite M3 in M1.
  - assert (I1 : cur = prev \/ In cur (map fst (es ++ news same (map fst es) M))) by (destruct C as [C | C]; [now left | right; rewrite map_app; apply in_or_app; now left]).
    destruct Hc as [-> | ->]; [exact I1|]. destruct CM as [-> | CM]; [exact I1|]. right. rewrite map_app. now apply (news_all same_ok).
  - apply Forall_app. split; [exact B|]. apply Forall_forall. intros p Hp Hn. rewrite Forall_forall in BM. destruct (BM p (Sub p Hp) Hn) as (E1 & E2 & E3). split; [|split; [exact E2 | exact E3]]. destruct C as [<- | C]; [exact E1|]. rewrite E1 in C. apply in_map_iff in C. destruct C as (q & Hq & Hq2). rewrite Forall_forall in B. now destruct (B q Hq2 Hq) as [? _].
  - apply Forall_app. split; [exact X|]. apply Forall_forall. intros p Hp. rewrite Forall_forall in XM. auto.
Qed.
Lemma level_given pruned t prev : level pruned prev (given pruned t prev) [] prev.
Proof.
  unfold given. destruct (has_noun_arg t && _) eqn:E; repeat split; auto; try constructor; auto.
  - cbn. unfold but. cbn. now rewrite (proj2 (same_ok prev prev) eq_refl).
  - intros Hn. cbn in Hn. subst prev. apply andb_true_iff in E. destruct E as [_ E]. repeat split. now destruct pruned.
  - cbn. eauto.
Qed.
Lemma slots_ok pruned fol n : forall prev d ns ids cand, sand_rec pruned fol n prev = Ok (d, ns, ids, cand) -> level pruned prev (combine ids ns) (leaf_pairs pruned n) cand.
Proof.
  induction n as [w i t p cs IH] using node_rec. intros prev d ns ids cand E. destruct (bare_noun (Node w i t p cs)) eqn:B.
  - unfold leaf_pairs. rewrite slots_node, B. rewrite sand_rec_eq in E. rewrite bare_eq in B. rewrite B in E. apply andb_true_iff in B. destruct B as [_ B]. destruct cs; [|discriminate]. cbn [andb map List.concat] in *. rewrite app_nil_r.
    destruct (memZ i pruned); injection E as <- <- <- <-; cbn [negb map combine].
    + split; [reflexivity|]. split; [now left|]. split; constructor.
    + split; [reflexivity|]. split; [right; now left|]. split; (apply Forall_cons; [|apply Forall_nil]); [discriminate | exists w; reflexivity].
  - destruct (@word_ok pruned fol w i t p cs prev) as (rs & cur & P & G & E'); [|exact B|]. { apply Forall_forall. intros c _. apply sand_good. }
    cbv zeta in E'. assert (L : level pruned prev (joined_slots (given pruned t prev) rs) ([] ++ List.concat (map (leaf_pairs pruned) cs)) cur).
    { assert (Gen : forall c0 cs0 rs0 c1, parts (sand_rec pruned fol) c0 cs0 rs0 c1 -> Forall (fun n => forall prev d ns ids cand, sand_rec pruned fol n prev = Ok (d, ns, ids, cand) -> level pruned prev (combine ids ns) (leaf_pairs pruned n) cand) cs0 -> Forall good rs0 ->
        forall L es, level pruned prev es L c0 -> level pruned prev (joined_slots es rs0) (L ++ List.concat (map (leaf_pairs pruned) cs0)) c1); [|exact (Gen prev cs rs cur P IH G [] _ (level_given pruned t prev))].
      clear. induction 1 as [c0|c0 c cs0 r rs0 c1 Er P IHP]; intros IH G L es G0; [cbn; now rewrite app_nil_r|]. inversion G as [|? ? Gr G']; subst. inversion IH as [|? ? IHc IH']; subst. destruct r as [[[cd cns] cids] cc]. cbn [joined_slots map List.concat]. rewrite app_assoc. apply IHP; auto.
      destruct Gr as (_ & Nc & Lc). apply (level_step G0 (IHc _ _ _ _ _ Er)); [now rewrite map_fst_combine|]. cbn [snd]. destruct (ty_eqb _ _); auto. }
    cbn [app] in L. assert (Lp : List.concat (map (leaf_pairs pruned) cs) = leaf_pairs pruned (Node w i t p cs)). { unfold leaf_pairs. rewrite slots_node, B. cbn [andb app]. now rewrite concat_map, map_map. }
    rewrite Lp in L. destruct (joined_slots (given pruned t prev) rs) as [|e es] eqn:Ees.
    + rewrite E in E'. injection E' as -> -> -> ->. exact L.
    + rewrite <- Ees in *. destruct E' as (d' & E' & _). rewrite E in E'. injection E' as -> -> -> ->. assert (Cm : forall l : list ip, combine (map fst l) (map snd l) = l) by (induction l as [|[? ?] ? IHl]; cbn; congruence). now rewrite Cm.
Qed.
