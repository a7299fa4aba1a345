(** From a parse to the diagram of a sentence (C71, lemmas only). *)
From Coq Require Import Permutation Sorted.
From Verif Require Import PyBase PyFacts TyModel TyFacts DiagModel DiagSpec DiagFacts MiscModel MiscSpec MiscFacts TreeModel TreeSpec TreeFacts TreeRew CircModel CircSpec CircPerm CircRun CircMatch CircStep CircFrames CircSand CircWord CircSlots CircText.
Close Scope string_scope. Set Implicit Arguments. Unset Strict Implicit.

(** ** positions *)
Fixpoint greedy (orig : list string) (j : nat) (ws : list string) : list nat := match ws with [] => [] | w :: ws' => let j' := scan_tok (skipn j orig) j w in j' :: greedy orig (S j') ws' end.
Lemma reindices_eq orig ws : forall is j, List.length is = List.length ws -> reindices orig j (combine is ws) = combine is (greedy orig j ws).
Proof. induction ws as [|w ws IH]; intros [|i is] j L; try discriminate; [reflexivity|]. cbn in *. now rewrite IH by lia. Qed.
Lemma greedy_len orig ws : forall j, List.length (greedy orig j ws) = List.length ws.
Proof. induction ws as [|w ws IH]; intros j; cbn; [reflexivity | now rewrite IH]. Qed.
Lemma scan_ge ts : forall j w, j <= scan_tok ts j w.
Proof. induction ts as [|t ts IH]; intros j w; cbn; [lia|]. destruct (String.eqb t w); [lia|]. specialize (IH (S j) w). lia. Qed.
Lemma greedy_sorted orig ws : forall j, StronglySorted lt (greedy orig j ws) /\ Forall (le j) (greedy orig j ws).
Proof.
  induction ws as [|w ws IH]; intros j; [split; constructor|]. cbn [greedy]. set (j' := scan_tok (skipn j orig) j w). assert (G : j <= j') by apply scan_ge. destruct (IH (S j')) as [S1 S2]. assert (S3 : Forall (lt j') (greedy orig (S j') ws)) by (eapply Forall_impl; [|exact S2]; cbn; intros; lia). split; [now constructor|]. constructor; [exact G|]. eapply Forall_impl; [|exact S2]; cbn; intros; lia.
Qed.
Lemma kept_weaken A (x : A) l l' : kept (fun _ => True) l (x :: l') -> kept (fun _ => True) l l'.
Proof. intros H. remember (x :: l') as m eqn:E. revert E. induction H as [|y l0 l1 H IH|y l0 l1 _ H IH]; intros E; [discriminate | injection E as -> ->; now constructor | constructor; auto]. Qed.
Lemma scan_kept w ws : forall ts j, kept (fun _ => True) ts (w :: ws) -> exists k, scan_tok ts j w = j + k /\ nth_error ts k = Some w /\ kept (fun _ => True) (skipn (S k) ts) ws.
Proof.
  induction ts as [|t ts IH]; intros j H; [inversion H|]. cbn [scan_tok]. destruct (String.eqb_spec t w) as [->|Ne].
  - exists 0. split; [lia|]. split; [reflexivity|]. cbn [skipn]. inversion H; subst; [assumption | eapply kept_weaken; eassumption].
  - inversion H; subst; [congruence|]. destruct (IH (S j) ltac:(assumption)) as (k & E & Hn & Hk). exists (S k). split; [lia|]. split; [exact Hn | exact Hk].
Qed.
Lemma nth_error_skipn_ A (l : list A) j : forall k, nth_error (skipn j l) k = nth_error l (j + k).
Proof. revert l. induction j as [|j IH]; intros [|x l] k; cbn [skipn Nat.add]; auto; [now destruct k |]. apply IH. Qed.
Lemma greedy_aligned orig ws : forall j, kept (fun _ => True) (skipn j orig) ws -> Forall2 (fun w j => nth_error orig j = Some w) ws (greedy orig j ws).
Proof.
  induction ws as [|w ws IH]; intros j H; [constructor|]. cbn [greedy]. destruct (scan_kept j H) as (k & E & Hn & Hk). rewrite E. constructor; [now rewrite <- nth_error_skipn_|]. apply IH. rewrite <- skipn_add in Hk. now replace (S (j + k)) with (j + S k) by lia.
Qed.
Lemma dict_fold (l : list (Z * nat)) : forall acc, NoDup (map fst (acc ++ l)) -> fold_left (fun d '(i, j) => d_set Z.eqb i j d) l acc = acc ++ l.
Proof.
  induction l as [|[i j] l IH]; intros acc N; [now rewrite app_nil_r|]. cbn [fold_left]. rewrite (d_set_new Z.eqb_eq). { rewrite IH; rewrite <- app_assoc; [reflexivity | exact N]. }
  rewrite map_app in N. cbn in N. apply NoDup_remove_2 in N. intros I. apply N, in_or_app. now left.
Qed.
Lemma sorted_nodup is : StronglySorted Z.lt is -> NoDup is.
Proof. induction 1 as [|x l _ IH H]; constructor; auto. intros I. rewrite Forall_forall in H. specialize (H x I). lia. Qed.
Lemma calc_eq orig ws is : StronglySorted Z.lt is -> List.length is = List.length ws -> calculate_reindices orig ws is = combine is (greedy orig 0 ws).
Proof.
  intros S L. unfold calculate_reindices. rewrite reindices_eq by exact L. apply (@dict_fold (combine is (greedy orig 0 ws)) []). cbn [app]. rewrite map_fst_combine by (now rewrite greedy_len). now apply sorted_nodup.
Qed.
Definition position (is : list Z) (js : list nat) (i : Z) : Z := match d_get Z.eqb i (combine is js) with Some j => Z.of_nat j | None => 0%Z end.
Lemma position_eq is (js : list nat) i : List.length js = List.length is -> In i is -> exists j, d_get Z.eqb i (combine is js) = Some j.
Proof.
  revert js. induction is as [|x is IH]; intros [|j js] L I; try discriminate; [destruct I|]. cbn [combine]. unfold d_get in *. cbn [find fst]. destruct (Z.eqb_spec x i) as [->|Ne]; [eauto|]. destruct I as [-> | I]; [congruence|]. apply IH; [cbn in L; lia | exact I].
Qed.
Lemma position_at is (js : list nat) k x j : StronglySorted Z.lt is -> nth_error is k = Some x -> nth_error js k = Some j -> d_get Z.eqb x (combine is js) = Some j.
Proof.
  intros Sd. revert js k. induction Sd as [|y is Sd IH F]; intros js k Hx Hj; [now destruct k|]. destruct js as [|j0 js]; [now destruct k|]. cbn [combine]. unfold d_get in *. cbn [find fst]. destruct k as [|k]; cbn in Hx, Hj.
  - injection Hx as ->. injection Hj as ->. now rewrite Z.eqb_refl.
  - destruct (Z.eqb_spec y x) as [->|Ne]; [apply nth_error_In in Hx; rewrite Forall_forall in F; specialize (F x Hx); lia|]. exact (IH js k Hx Hj).
Qed.
Lemma reindex_ok is js n : List.length js = List.length is -> (forall i, In i (inds n) -> In i is) -> exists n', reindex (combine is js) n = Ok n' /\ erase n' = relabel (position is js) n.
Proof.
  intros L. induction n as [w i t p cs IH] using node_rec. intros H. cbn [reindex relabel]. destruct (position_eq L (H i (or_introl eq_refl))) as [j Ej]. rewrite Ej.
  set (go := fix go (cs0 : list node) : res (list node) := match cs0 with [] => Ok [] | c :: cs1 => do c' <- reindex (combine is js) c; do r <- go cs1; Ok (c' :: r) end).
  assert (G : exists cs', go cs = Ok cs' /\ map erase cs' = map (relabel (position is js)) cs).
  { assert (H' : forall c, In c cs -> forall k, In k (inds c) -> In k is). { intros c Hc k Hk. apply H. unfold inds in *. rewrite subtrees_node. right. rewrite concat_map, map_map. apply in_concat. exists (inds c). split; [apply in_map_iff; exists c; split; auto | exact Hk]. }
    clear H. induction IH as [|c cs Hc _ IHcs]; [exists []; auto|]. destruct (Hc (H' c (or_introl eq_refl))) as (c' & E1 & E2). destruct IHcs as (cs' & E3 & E4); [intros c0 Hc0; apply (H' c0); now right|]. exists (c' :: cs'). cbn [go map]. rewrite E1. cbn [bind]. fold go. rewrite E3. cbn [bind]. split; [reflexivity | now rewrite E2, E4]. }
  destruct G as (cs' & E1 & E2). rewrite E1. cbn [bind]. eexists. split; [reflexivity|]. rewrite erase_mk. unfold position at 1. rewrite Ej. now rewrite E2.
Qed.
Lemma fix_root_ok s n : completed s n (fix_root (List.length s) n) /\ (n_typ (fix_root (List.length s) n) = [a_s] \/ n_typ (fix_root (List.length s) n) = [a_n]).
Proof.
  destruct n as [w i t p cs]. unfold fix_root. destruct (ty_eqb t [a_s] || ty_eqb t [a_n]) eqn:E.
  - apply orb_true_iff in E. rewrite !ty_eqb_true in E. split; [now constructor | exact E].
  - apply orb_false_iff in E. destruct E as [E1 E2]. split; [constructor; intros ->; rewrite ty_eqb_refl in *; discriminate | now left].
Qed.
Lemma kept_in A (P : A -> Prop) l m x : kept P l m -> In x m -> In x l.
Proof. induction 1 as [|y l m _ IH|y l m _ _ IH]; cbn [In]; tauto. Qed.
Lemma rewrite_all_inds rs : forall n i, In i (inds (rewrite_all rs n)) -> In i (inds n).
Proof.
  unfold rewrite_all. induction rs as [|r rs IH]; intros n i H; [exact H|]. cbn in H. apply IH in H. exact (kept_in (edit_inds r n) H).
Qed.
Lemma rewrite_all_typ rs : forall n, n_typ (rewrite_all rs n) = n_typ n.
Proof. unfold rewrite_all. induction rs as [|r rs IH]; intros n; [reflexivity|]. cbn. rewrite IH. apply edit_typ. Qed.
Lemma relabel_typ f n : n_typ (relabel f n) = n_typ n.
Proof. now destruct n. Qed.
Section Prepare.
  Variables (rules : list rule) (fol : bool) (corefd : list (mention * mention)) (pruned : list (list nat)) (i : nat) (s : list string) (parsed : node) (ps : list nat).
  Hypotheses (Nn : forall m, In m (subtrees (fix_root (List.length s) parsed)) -> (0 <= n_ind m)%Z) (Hp : nth_error pruned i = Some ps).
  Let pz := map Z.of_nat ps.
  Lemma tree_ok : exists t, sentence_tree (rewrite_all rules) s parsed t /\ arguments (n_typ t) = [] /\ forall sandwich, prepare rules sandwich fol corefd pruned i s parsed =
    do (r : diagram * list box * list (option Z)) <- tree2circuital sandwich fol pz t; let '(sd, nouns, nids) := r in Ok (sd, nouns, map (fun nid => resolve corefd (i, nid)) nids).
  Proof.
    destruct (fix_root_ok s parsed) as [C Ty]. set (c := fix_root (List.length s) parsed) in *. destruct (get_lists_ok Nn) as (is & Hi & _ & _ & Gi & Gw & _). set (ws := map (fun i => hd EmptyString (map n_word (at_index i c))) is) in *.
    assert (Lw : List.length is = List.length ws) by (unfold ws; now rewrite map_length). set (js := greedy s 0 ws). assert (Lj : List.length js = List.length is) by (unfold js; rewrite greedy_len; congruence).
    destruct (@reindex_ok is js (rewrite_all rules c) Lj) as (t & Et & Er). { intros k Hk. apply rewrite_all_inds in Hk. apply (proj2 Hi). unfold inds in Hk. apply in_map_iff in Hk. destruct Hk as (m & E & Hm). eauto. }
    exists t. split; [|split].
    - exists c, ws, is, js, (position is js). split; [exact C|]. split; [exact Hi|]. split; [reflexivity|]. split; [exact Lj|]. assert (Sj := proj1 (greedy_sorted s ws 0)). split; [exact Sj|]. split; [intros Kp; split; [exact Sj | now apply greedy_aligned]|]. split; [|exact Er]. intros k x j Hx Hj. unfold position. rewrite (@position_at is js k x j (proj1 Hi) Hx Hj). reflexivity.
    - assert (E : n_typ t = n_typ c). { apply (f_equal n_typ) in Er. rewrite relabel_typ, rewrite_all_typ in Er. destruct (erase_fields t) as (_ & _ & E & _). congruence. } rewrite E. destruct Ty as [-> | ->]; reflexivity.
    - intros sandwich. unfold prepare. fold c. rewrite Gw. cbn [bind]. rewrite Gi. cbn [bind]. rewrite (calc_eq s (proj1 Hi) Lw). fold js. rewrite Et. cbn [bind]. rewrite Hp. reflexivity.
  Qed.
End Prepare.
