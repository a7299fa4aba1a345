(** Proofs about [remove_cycles]. *)
From Coq Require Import ZArith Sorted.
From Verif Require Import PyBase PyFacts TyModel TreeModel TreeSpec RcModel RcSpec.
Close Scope string_scope. Set Implicit Arguments. Unset Strict Implicit.

Lemma node_rect' (P : node -> Prop) : (forall w i t p cs, Forall P cs -> P (Node w i t p cs)) -> forall n, P n.
Proof.
  intros H. fix IH 1. intros [w i t p cs]. apply H. induction cs as [|c cs IHc]; constructor; [apply IH|exact IHc].
Qed.

(** ** Walks: position, path and node together *)
Definition rec := (pos * (list token * node))%type.
Definition rpos (x : rec) : pos := fst x.
Definition rpath (x : rec) : list token := fst (snd x).
Definition rnode (x : rec) : node := snd (snd x).
Definition below (k : nat) (t : token) (x : rec) : rec := (k :: rpos x, (t :: rpath x, rnode x)).
Fixpoint walk (n : node) : list rec :=
  let 'Node w i t p cs := n in
  ([], ([(w, i, t, p)], n)) :: (fix go (k : nat) (cs : list node) : list rec :=
    match cs with [] => [] | c :: cs' => map (below k (w, i, t, p)) (walk c) ++ go (S k) cs' end) 0 cs.
Fixpoint wgo (tk : token) (k : nat) (cs : list node) : list rec :=
  match cs with [] => [] | c :: cs' => map (below k tk) (walk c) ++ wgo tk (S k) cs' end.
Lemma walk_eq w i t p cs : walk (Node w i t p cs) = ([], ([(w, i, t, p)], Node w i t p cs)) :: wgo (w, i, t, p) 0 cs.
Proof. cbn [walk]. f_equal. generalize 0. induction cs as [|c cs IH]; intros k; [reflexivity|cbn [wgo]; rewrite <- IH; reflexivity]. Qed.
Fixpoint pgo (k : nat) (cs : list node) : list (pos * node) :=
  match cs with [] => [] | c :: cs' => map (fun x => (k :: fst x, snd x)) (positions c) ++ pgo (S k) cs' end.
Lemma positions_eq w i t p cs : positions (Node w i t p cs) = ([], Node w i t p cs) :: pgo 0 cs.
Proof. reflexivity. Qed.

Lemma walk_positions n : positions n = map (fun x => (rpos x, rnode x)) (walk n).
Proof.
  induction n as [w i t p cs IH] using node_rect'. rewrite positions_eq, walk_eq. cbn [map rpos rnode fst snd]. f_equal.
  generalize 0. induction IH as [|c cs Hc _ IH]; intros k; [reflexivity|]. cbn [pgo wgo]. rewrite map_app, map_map, <- IH, Hc, map_map. reflexivity.
Qed.
Lemma walk_paths n : paths n = map rpath (walk n).
Proof.
  induction n as [w i t p cs IH] using node_rect'. rewrite walk_eq. cbn [paths map rpath fst snd]. f_equal.
  generalize 0. induction IH as [|c cs Hc _ IH]; intros k; [reflexivity|]. cbn [map List.concat wgo]. rewrite map_app, map_map, (IH (S k)), Hc, map_map. reflexivity.
Qed.
Lemma walk_subtrees n : subtrees n = map rnode (walk n).
Proof.
  induction n as [w i t p cs IH] using node_rect'. rewrite walk_eq. cbn [subtrees map rnode fst snd]. f_equal.
  generalize 0. induction IH as [|c cs Hc _ IH]; intros k; [reflexivity|]. cbn [map List.concat wgo]. rewrite map_app, map_map, (IH (S k)), Hc. reflexivity.
Qed.
Lemma wgo_in tk k cs x : In x (wgo tk k cs) <-> exists j c y, nth_error cs j = Some c /\ In y (walk c) /\ x = below (k + j) tk y.
Proof.
  revert k. induction cs as [|c cs IH]; intros k; cbn [wgo].
  - split; [intros []|]. intros (j & c & y & H & _). destruct j; discriminate.
  - rewrite in_app_iff, in_map_iff, IH. split.
    + intros [(y & <- & Hy) | (j & c' & y & H & Hy & ->)].
      * exists 0, c, y. rewrite Nat.add_0_r. repeat split; auto.
      * exists (S j), c', y. rewrite Nat.add_succ_r. repeat split; auto.
    + intros (j & c' & y & H & Hy & ->). destruct j as [|j]; cbn [nth_error] in H.
      * injection H as <-. left. exists y. rewrite Nat.add_0_r. auto.
      * right. exists j, c', y. rewrite Nat.add_succ_r. auto.
Qed.
Lemma nodup_app {A} (l m : list A) : NoDup l -> NoDup m -> (forall x, In x l -> ~ In x m) -> NoDup (l ++ m).
Proof.
  intros Hl Hm H. induction Hl as [|x l Hx Hl IH]; [exact Hm|]. cbn [app]. constructor.
  - rewrite in_app_iff. intros [Hi|Hi]; [auto|]. apply (H x); [left; reflexivity|exact Hi].
  - apply IH. intros y Hy. apply H. right. exact Hy.
Qed.
Lemma nodup_map {A B} (f : A -> B) (l : list A) : (forall x y, In x l -> In y l -> f x = f y -> x = y) -> NoDup l -> NoDup (map f l).
Proof.
  intros H Hl. induction Hl as [|x l Hx Hl IH]; cbn [map]; constructor.
  - intros (y & E & Hy)%in_map_iff. apply Hx. rewrite <- (H y x); auto; [right; exact Hy|left; reflexivity].
  - apply IH. intros a b Ha Hb. apply H; right; assumption.
Qed.
Lemma walk_nodup n : NoDup (map rpos (walk n)).
Proof.
  induction n as [w i t p cs IH] using node_rect'. rewrite walk_eq. cbn [map rpos fst]. constructor.
  - intros (x & Hx & Hin)%in_map_iff. apply wgo_in in Hin as (j & c & y & _ & _ & ->). discriminate.
  - generalize 0. induction IH as [|c cs Hc _ IH]; intros k; cbn [wgo]; [constructor|]. rewrite map_app.
    assert (E : map rpos (map (below k (w, i, t, p)) (walk c)) = map (cons k) (map rpos (walk c))) by (rewrite !map_map; reflexivity). rewrite E. clear E.
    apply nodup_app; [apply nodup_map; [congruence|exact Hc]|apply IH|].
    intros x (q & <- & _)%in_map_iff (y & E & Hy)%in_map_iff. apply wgo_in in Hy as (j & c' & z & _ & _ & ->). cbn in E. injection E as E _. lia.
Qed.

(** the node at a position *)
Fixpoint at_pos (n : node) (p : pos) : option node :=
  match p with [] => Some n | k :: p' => match nth_error (n_children n) k with Some c => at_pos c p' | None => None end end.
Lemma at_app n p q : at_pos n (p ++ q) = match at_pos n p with Some m => at_pos m q | None => None end.
Proof. revert n. induction p as [|k p IH]; intros n; [reflexivity|]. cbn [app at_pos]. destruct (nth_error (n_children n) k); [apply IH|reflexivity]. Qed.
Lemma walk_at n x : In x (walk n) -> at_pos n (rpos x) = Some (rnode x).
Proof.
  revert x. induction n as [w i t p cs IH] using node_rect'. intros x. rewrite walk_eq. intros [<-|H]; [reflexivity|].
  apply wgo_in in H as (j & c & y & Hc & Hy & ->). cbn [below rpos rnode fst snd at_pos n_children Nat.add]. rewrite Hc.
  rewrite Forall_forall in IH. apply IH; [apply nth_error_In with j; exact Hc|exact Hy].
Qed.
Lemma walk_length n x : In x (walk n) -> List.length (rpath x) = S (List.length (rpos x)).
Proof.
  revert x. induction n as [w i t p cs IH] using node_rect'. intros x. rewrite walk_eq. intros [<-|H]; [reflexivity|].
  apply wgo_in in H as (j & c & y & Hc & Hy & ->). cbn [below rpos rpath fst snd List.length]. f_equal.
  rewrite Forall_forall in IH. apply (IH c); [apply nth_error_In with j; exact Hc|exact Hy].
Qed.
Lemma end_ind_cons t l : l <> [] -> end_ind (t :: l) = end_ind l.
Proof. intros H. unfold end_ind. cbn [rev]. destruct (rev l) as [|a r] eqn:E; [|reflexivity]. apply (f_equal (@rev _)) in E. rewrite rev_involutive in E. cbn in E. contradiction. Qed.
Lemma walk_end n x : In x (walk n) -> end_ind (rpath x) = Some (n_ind (rnode x)).
Proof.
  revert x. induction n as [w i t p cs IH] using node_rect'. intros x. rewrite walk_eq. intros [<-|H]; [reflexivity|].
  apply wgo_in in H as (j & c & y & Hc & Hy & ->). cbn [below rpos rpath rnode fst snd].
  rewrite end_ind_cons. 2:{ pose proof (walk_length Hy) as E. destruct (rpath y); [discriminate E|discriminate]. }
  rewrite Forall_forall in IH. apply (IH c); [apply nth_error_In with j; exact Hc|exact Hy].
Qed.

(** ** What pruning leaves *)
Fixpoint alive (P : pos -> bool) (p : pos) : bool := match p with [] => true | k :: p' => negb (P [k]) && alive (fun q => P (k :: q)) p' end.
Lemma alive_spec P p : alive P p = true <-> forall q r, p = q ++ r -> q <> [] -> P q = false.
Proof.
  revert P. induction p as [|k p IH]; intros P; cbn [alive].
  - split; [|reflexivity]. intros _ q r E Hq. destruct q; [contradiction|discriminate].
  - rewrite andb_true_iff, negb_true_iff, IH. split.
    + intros [H1 H2] q r E Hq. destruct q as [|a q]; [contradiction|]. injection E as <- E. destruct q as [|b q]; [exact H1|]. apply H2 with r; [exact E|discriminate].
    + intros H. split; [apply (H [k] p); [reflexivity|discriminate]|]. intros q r E Hq. apply H with r; [cbn; rewrite E; reflexivity|discriminate].
Qed.
Fixpoint prgo (cut : pos -> bool) (k : nat) (cs : list node) : list node :=
  match cs with [] => [] | c :: cs' => (if cut [k] then [] else [prune (fun q => cut (k :: q)) c]) ++ prgo cut (S k) cs' end.
Lemma prune_eq cut w i t p cs : prune cut (Node w i t p cs) = Node w i t p (prgo cut 0 cs).
Proof. cbn [prune]. f_equal. generalize 0. induction cs as [|c cs IH]; intros k; [reflexivity|cbn [prgo]; rewrite <- IH; reflexivity]. Qed.
Lemma filter_map {A B} (f : A -> B) (P : B -> bool) l : filter P (map f l) = map f (filter (fun x => P (f x)) l).
Proof. induction l as [|x l IH]; [reflexivity|]. cbn [map filter]. destruct (P (f x)); cbn [map]; rewrite IH; reflexivity. Qed.
Lemma filter_false {A} (P : A -> bool) l : (forall x, In x l -> P x = false) -> filter P l = [].
Proof. induction l as [|x l IH]; intros H; [reflexivity|]. cbn [filter]. rewrite H by (left; reflexivity). apply IH. intros y Hy. apply H. right. exact Hy. Qed.
Lemma prune_paths P n : paths (prune P n) = map rpath (filter (fun x => alive P (rpos x)) (walk n)).
Proof.
  revert P. induction n as [w i t p cs IH] using node_rect'. intros P. rewrite prune_eq, walk_eq. cbn [paths filter]. change (alive P (rpos ([], ([(w, i, t, p)], Node w i t p cs)))) with true. cbv iota. cbn [map]. f_equal.
  generalize 0. induction IH as [|c cs Hc _ IH]; intros k; [reflexivity|]. cbn [prgo wgo]. rewrite filter_app, !map_app, <- IH, concat_app. clear IH. f_equal.
  rewrite filter_map. change (fun x => alive P (rpos (below k (w, i, t, p) x))) with (fun x => negb (P [k]) && alive (fun q => P (k :: q)) (rpos x)).
  destruct (P [k]); cbn [negb andb map List.concat].
  - rewrite filter_false; [reflexivity|reflexivity].
  - rewrite app_nil_r, Hc, !map_map. reflexivity.
Qed.

Lemma pos_eqb_eq p q : pos_eqb p q = true <-> p = q.
Proof.
  revert q. induction p as [|a p IH]; intros [|b q]; cbn [pos_eqb]; try (split; [discriminate|discriminate]); [split; reflexivity|].
  rewrite andb_true_iff, Nat.eqb_eq, IH. split; [intros [-> ->]; reflexivity|intros E; injection E; auto].
Qed.
Lemma detached_in cuts p : detached cuts p = true <-> In p cuts.
Proof.
  unfold detached. rewrite existsb_exists. split; [intros (q & H & E%pos_eqb_eq); subst; exact H|]. intros H. exists p. split; [exact H|]. apply pos_eqb_eq. reflexivity.
Qed.
Lemma detached_out cuts p : detached cuts p = false <-> ~ In p cuts.
Proof. rewrite <- detached_in. destruct (detached cuts p); split; congruence. Qed.
Lemma depth_alive cuts p : alive (detached cuts) p = true -> get_depth cuts [] (rev p) = Z.of_nat (List.length p).
Proof.
  induction p as [|k p IH] using rev_ind; intros H; [reflexivity|]. rewrite rev_app_distr. cbn [rev app get_depth]. rewrite rev_involutive.
  destruct (pos_eqb (p ++ [k]) []) eqn:E; [apply pos_eqb_eq in E; destruct p; discriminate E|].
  rewrite alive_spec in H. rewrite (H (p ++ [k]) []); [|rewrite app_nil_r; reflexivity|destruct p; discriminate].
  rewrite IH. 2:{ apply alive_spec. intros q r E' Hq. apply (H q (r ++ [k])); [rewrite E', app_assoc; reflexivity|exact Hq]. }
  cbv zeta. destruct (Z.of_nat (List.length p) =? -1)%Z eqn:E'; [lia|]. rewrite app_length. cbn [List.length]. lia.
Qed.

Lemma alive_snoc P p k : alive P (p ++ [k]) = alive P p && negb (P (p ++ [k])).
Proof. revert P. induction p as [|a p IH]; intros P; cbn [app alive]; [destruct (P [k]); reflexivity|]. rewrite IH, andb_assoc. reflexivity. Qed.
Lemma depth_dead cuts p : alive (detached cuts) p = false -> get_depth cuts [] (rev p) = (-1)%Z.
Proof.
  induction p as [|k p IH] using rev_ind; intros H; [discriminate H|]. rewrite alive_snoc in H. rewrite rev_app_distr. cbn [rev app get_depth]. rewrite rev_involutive.
  destruct (pos_eqb (p ++ [k]) []) eqn:E; [apply pos_eqb_eq in E; destruct p; discriminate E|].
  destruct (detached cuts (p ++ [k])); [reflexivity|]. rewrite andb_true_r in H. rewrite IH by exact H. reflexivity.
Qed.
Lemma nil_children P w i t p cs : n_children (prune P (Node w i t p cs)) = [] -> forall k, k < List.length cs -> P [k] = true.
Proof.
  rewrite prune_eq. cbn [n_children]. assert (H : forall k0, prgo P k0 cs = [] -> forall k, k < List.length cs -> P [k0 + k] = true); [|exact (H 0)].
  induction cs as [|c cs IH]; intros k0 E k Hk; [cbn in Hk; lia|]. cbn [prgo] in E. destruct (P [k0]) eqn:Ek; [|discriminate E].
  destruct k as [|k]; [rewrite Nat.add_0_r; exact Ek|]. rewrite Nat.add_succ_r. apply (IH (S k0) E). cbn in Hk. lia.
Qed.
Lemma prune_ext (P Q : pos -> bool) n : (forall q : pos, q <> [] -> P q = Q q) -> prune P n = prune Q n.
Proof.
  revert P Q. induction n as [w i t p cs IH] using node_rect'. intros P Q H. rewrite !prune_eq. f_equal. generalize 0.
  induction IH as [|c cs Hc _ IH]; intros k; [reflexivity|]. cbn [prgo]. rewrite IH, (H [k]) by discriminate. destruct (Q [k]); [reflexivity|].
  rewrite (Hc (fun q : pos => P (k :: q)) (fun q : pos => Q (k :: q))); [reflexivity|]. intros q _. apply H. discriminate.
Qed.
Lemma prune_subtrees P n : subtrees (prune P n) = map (fun x => prune (fun q => P (rpos x ++ q)) (rnode x)) (filter (fun x => alive P (rpos x)) (walk n)).
Proof.
  revert P. induction n as [w i t p cs IH] using node_rect'. intros P. rewrite walk_eq. cbn [filter]. change (alive P (rpos ([], ([(w, i, t, p)], Node w i t p cs)))) with true. cbv iota. cbn [map].
  cbn [rpos rnode fst snd app]. change (fun q => P q) with P. rewrite prune_eq at 1. cbn [subtrees]. rewrite <- prune_eq. f_equal.
  generalize 0. induction IH as [|c cs Hc _ IH]; intros k; [reflexivity|]. cbn [prgo wgo]. rewrite filter_app, !map_app, concat_app, IH. clear IH. f_equal.
  rewrite filter_map, map_map. change (fun x => alive P (rpos (below k (w, i, t, p) x))) with (fun x => negb (P [k]) && alive (fun q => P (k :: q)) (rpos x)).
  destruct (P [k]); cbn [negb andb map List.concat].
  - rewrite filter_false; [reflexivity|reflexivity].
  - rewrite app_nil_r, Hc. reflexivity.
Qed.
Lemma prefix_walk n p m : at_pos n p = Some m -> exists x, In x (walk n) /\ rpos x = p.
Proof.
  revert n. induction p as [|k p IH]; intros [w i t q cs] E; rewrite walk_eq.
  - eexists. split; [left; reflexivity|reflexivity].
  - cbn [at_pos n_children] in E. destruct (nth_error cs k) as [c|] eqn:Ec; [|discriminate E]. apply IH in E as (x & Hx & Ex).
    exists (below k (w, i, t, q) x). split; [|cbn; rewrite <- Ex; reflexivity]. right. apply wgo_in. exists k, c, x. auto.
Qed.

(** ** One group *)
Definition keep_of (cuts : list pos) (g : list (pos * node)) : nat :=
  match g with [] => 0 | x :: l => fst (deepest cuts [] 1 (0, get_depth cuts [] (rev (fst x))) l) end.
Lemma drop_others_spec keep g j cuts p :
  In p (drop_others keep j cuts g) <-> In p cuts \/ exists i x, nth_error g i = Some x /\ j + i <> keep /\ fst x = p /\ p <> [].
Proof.
  revert j cuts. induction g as [|x g IH]; intros j cuts; cbn [drop_others].
  - split; [auto|]. intros [H | (i & x & H & _)]; [exact H|]. destruct i; discriminate.
  - rewrite IH. clear IH. split.
    + intros [H | (i & y & H & Hi & E & Hp)].
      * destruct (negb (j =? keep) && _) eqn:C in H; [|left; exact H]. apply andb_true_iff in C as [C1 C2]. apply negb_true_iff, Nat.eqb_neq in C1.
        destruct H as [<-|H]; [|left; exact H]. right. exists 0, x. repeat split; [lia|]. destruct (fst x); [discriminate C2|discriminate].
      * right. exists (S i), y. repeat split; auto. lia.
    + intros [H | (i & y & H & Hi & E & Hp)].
      * left. destruct (negb (j =? keep) && _); [right|]; exact H.
      * destruct i as [|i]; cbn [nth_error] in H.
        -- injection H as ->. left. subst p. destruct (detached cuts (fst y)) eqn:D.
           ++ apply detached_in in D. destruct (negb (j =? keep) && _); [right|]; exact D.
           ++ destruct (j =? keep) eqn:J; [apply Nat.eqb_eq in J; lia|]. destruct (fst y); [contradiction|]. cbn. left. reflexivity.
        -- right. exists i, y. repeat split; auto. lia.
Qed.
Lemma break_group_spec cuts g p :
  In p (break_group [] cuts g) <-> In p cuts \/ exists i x, nth_error g i = Some x /\ i <> keep_of cuts g /\ fst x = p /\ p <> [].
Proof.
  destruct g as [|x [|y l]].
  - cbn [break_group]. split; [auto|]. intros [H | (i & x & H & _)]; [exact H|]. destruct i; discriminate.
  - cbn [break_group keep_of deepest fst]. split; [auto|]. intros [H | (i & z & H & Hi & _)]; [exact H|]. destruct i as [|[|i]]; [lia|discriminate|discriminate].
  - unfold break_group. rewrite drop_others_spec. reflexivity.
Qed.
Lemma fold_mono gs cuts p : In p cuts -> In p (fold_left (break_group []) gs cuts).
Proof. revert cuts. induction gs as [|g gs IH]; intros cuts H; [exact H|]. cbn [fold_left]. apply IH. apply break_group_spec. left. exact H. Qed.
Lemma fold_keeps gs cuts g : In g gs -> exists k, forall i x, nth_error g i = Some x -> i <> k -> fst x <> [] -> In (fst x) (fold_left (break_group []) gs cuts).
Proof.
  revert cuts. induction gs as [|h gs IH]; intros cuts []; cbn [fold_left].
  - subst h. exists (keep_of cuts g). intros i x H Hi Hx. apply fold_mono. apply break_group_spec. right. exists i, x. auto.
  - apply IH. assumption.
Qed.

(** ** The groups *)
Lemma groups_in n g : In g (groups n) -> exists i, g = group i n.
Proof. unfold groups. intros [(i & <- & _)%in_map_iff _]%filter_In. exists (Z.of_nat i). reflexivity. Qed.
Lemma list_max_in l x : In x l -> x <= list_max l.
Proof. induction l as [|y l IH]; intros []; cbn [list_max fold_right]; [lia|]. specialize (IH H). unfold list_max in *. lia. Qed.
Lemma group_in n i x : In x (group i n) <-> In x (positions n) /\ n_ind (snd x) = i.
Proof. unfold group. rewrite filter_In, Z.eqb_eq. reflexivity. Qed.
Lemma in_groups n x : (0 <= n_ind (snd x))%Z -> In x (positions n) -> In (group (n_ind (snd x)) n) (groups n).
Proof.
  intros H0 Hx. unfold groups. apply filter_In. split.
  - apply in_map_iff. exists (Z.to_nat (n_ind (snd x))). split; [f_equal; lia|]. apply in_seq.
    assert (Z.to_nat (n_ind (snd x)) <= top_index n); [|lia]. unfold top_index. apply list_max_in. apply (in_map (fun x => Z.to_nat (n_ind (snd x)))). exact Hx.
  - destruct (group (n_ind (snd x)) n) as [|y l] eqn:E; [|reflexivity]. assert (In x []) as [] by (rewrite <- E; apply group_in; auto).
Qed.

(** ** The root *)
Lemma nth_filter {A} (P : A -> bool) l k : k < List.length l -> (forall i x, i <= k -> nth_error l i = Some x -> P x = true) -> nth_error (filter P l) k = nth_error l k.
Proof.
  revert k. induction l as [|x l IH]; intros k Hk H; [cbn in Hk; lia|]. cbn [filter]. rewrite (H 0 x) by (lia || reflexivity).
  destruct k as [|k]; [reflexivity|]. cbn [nth_error]. apply IH; [cbn in Hk; lia|]. intros i y Hi Hy. apply (H (S i)); [lia|exact Hy].
Qed.
Lemma nth_seq a m i : i < m -> nth_error (seq a m) i = Some (a + i).
Proof. revert a i. induction m as [|m IH]; intros a [|i] H; [lia|lia|cbn; f_equal; lia|]. cbn [seq nth_error]. rewrite IH by lia. f_equal. lia. Qed.
Lemma root_group n : group (n_ind n) n = ([], n) :: tl (group (n_ind n) n).
Proof. destruct n as [w i t p cs]. unfold group. rewrite positions_eq. cbn [filter snd n_ind]. rewrite Z.eqb_refl. reflexivity. Qed.
Lemma inds_in n i : In i (inds n) <-> exists x, In x (positions n) /\ n_ind (snd x) = i.
Proof.
  unfold inds. rewrite walk_subtrees, walk_positions, map_map, in_map_iff. split.
  - intros (x & <- & H). exists (rpos x, rnode x). split; [|reflexivity]. apply in_map_iff. exists x. auto.
  - intros (y & H & <-). apply in_map_iff in H as (x & <- & H). exists x. auto.
Qed.
Lemma root_in n : In ([], n) (positions n).
Proof. destruct n as [w i t p cs]. rewrite positions_eq. left. reflexivity. Qed.
Lemma positions_nonneg n x : no_gaps n -> In x (positions n) -> (0 <= n_ind (snd x))%Z.
Proof.
  intros [H0 _] Hx. apply H0. rewrite walk_positions in Hx. rewrite walk_subtrees. apply in_map_iff in Hx as (y & <- & Hy). apply (in_map rnode). exact Hy.
Qed.
Lemma nth_groups n : no_gaps n -> nth_error (groups n) (Z.to_nat (n_ind n)) = Some (group (n_ind n) n).
Proof.
  intros Hn. pose proof (positions_nonneg Hn (root_in n)) as H0. cbn [snd] in H0. pose proof Hn as [_ H1].
  assert (Hr : Z.to_nat (n_ind n) <= top_index n).
  { unfold top_index. apply list_max_in. exact (in_map (fun x => Z.to_nat (n_ind (snd x))) _ _ (root_in n)). }
  unfold groups. rewrite nth_filter.
  - rewrite nth_error_map, nth_seq by lia. cbn [option_map]. f_equal. f_equal. lia.
  - rewrite map_length, seq_length. lia.
  - intros i g Hi. rewrite nth_error_map, nth_seq by lia. cbn [option_map Nat.add]. intros E. injection E as <-.
    assert (Hin : In (Z.of_nat i) (inds n)).
    { destruct (Z.eq_dec (Z.of_nat i) (n_ind n)) as [-> | Hne]; [apply inds_in; exists ([], n); split; [apply root_in|reflexivity]|]. apply H1. lia. }
    apply inds_in in Hin as (x & Hx & Ex). destruct (group (Z.of_nat i) n) as [|y l] eqn:E; [|reflexivity].
    assert (In x []) as [] by (rewrite <- E; apply group_in; auto).
Qed.
Lemma remove_ok n t : no_gaps n -> remove_cycles n = Ok t ->
  group (n_ind n) n = [([], n)] /\ t = prune (detached (fold_left (break_group []) (groups n) (self_cuts n))) n.
Proof.
  intros Hn. unfold remove_cycles. cbv zeta. rewrite nth_groups by exact Hn. rewrite root_group. destruct (tl (group (n_ind n) n)) as [|y l]; [|discriminate].
  intros E. injection E as <-. split; [reflexivity|]. f_equal. f_equal. f_equal. cbn [app]. apply map_id.
Qed.
Lemma ok_remove n : no_gaps n -> group (n_ind n) n = [([], n)] ->
  remove_cycles n = Ok (prune (detached (fold_left (break_group []) (groups n) (self_cuts n))) n).
Proof.
  intros Hn E. unfold remove_cycles. cbv zeta. rewrite nth_groups, E by exact Hn. f_equal. f_equal. f_equal. f_equal. cbn [app]. apply map_id.
Qed.

(** ** One node for each word *)
Lemma paths_inds n : map end_ind (paths n) = map Some (inds n).
Proof.
  unfold inds. rewrite walk_paths, walk_subtrees, !map_map. apply map_ext_in. intros x. apply walk_end.
Qed.
Lemma nodup_unmap {A B} (f : A -> B) l : NoDup (map f l) -> NoDup l.
Proof.
  induction l as [|x l IH]; intros H; [constructor|]. inversion_clear H as [|? ? Hx Hl]. constructor; [|apply IH; exact Hl].
  intros Hi. apply Hx. apply in_map. exact Hi.
Qed.
Lemma nodup_nth {A} (l : list A) i j x : NoDup l -> nth_error l i = Some x -> nth_error l j = Some x -> i = j.
Proof. intros H Hi Hj. apply (proj1 (NoDup_nth_error l) H); [apply nth_error_Some; congruence|congruence]. Qed.
Lemma pos_inj n x y : In x (walk n) -> In y (walk n) -> rpos x = rpos y -> x = y.
Proof.
  intros Hx Hy E. apply In_nth_error in Hx as [i Hi]. apply In_nth_error in Hy as [j Hj].
  assert (i = j); [|congruence]. apply (nodup_nth (x := rpos x) (walk_nodup n)); [rewrite nth_error_map, Hi; reflexivity|rewrite nth_error_map, Hj, E; reflexivity].
Qed.
Lemma not_cut cuts p : alive (detached cuts) p = true -> p <> [] -> ~ In p cuts.
Proof. rewrite alive_spec. intros H Hp. apply detached_out. apply (H p []); [rewrite app_nil_r; reflexivity|exact Hp]. Qed.
Lemma unique_inds n t : no_gaps n -> remove_cycles n = Ok t -> NoDup (inds t).
Proof.
  intros Hn H. apply remove_ok in H as [Hr ->]; [|exact Hn]. apply nodup_unmap with (f := Some). rewrite <- paths_inds, prune_paths, map_map.
  set (cuts := fold_left _ _ _). apply nodup_map.
  - intros x y Hx Hy E. apply filter_In in Hx as [Hx Ax]. apply filter_In in Hy as [Hy Ay]. rewrite (walk_end Hx), (walk_end Hy) in E. injection E as E.
    apply (pos_inj Hx Hy).
    assert (Ix : In (rpos x, rnode x) (positions n)) by (rewrite walk_positions; apply (in_map (fun x => (rpos x, rnode x))); exact Hx).
    assert (Iy : In (rpos y, rnode y) (positions n)) by (rewrite walk_positions; apply (in_map (fun x => (rpos x, rnode x))); exact Hy).
    destruct (Z.eq_dec (n_ind (rnode x)) (n_ind n)) as [Er|Er].
    + assert (Gx : In (rpos x, rnode x) (group (n_ind n) n)) by (apply group_in; auto). assert (Gy : In (rpos y, rnode y) (group (n_ind n) n)) by (apply group_in; split; [exact Iy|cbn; congruence]).
      rewrite Hr in Gx, Gy. destruct Gx as [Gx|[]], Gy as [Gy|[]]. congruence.
    + assert (Gx : In (rpos x, rnode x) (group (n_ind (rnode x)) n)) by (apply group_in; auto).
      assert (Gy : In (rpos y, rnode y) (group (n_ind (rnode x)) n)) by (apply group_in; auto).
      pose proof (in_groups (positions_nonneg Hn Ix) Ix) as Hg. cbn [snd] in Hg.
      destruct (fold_keeps (self_cuts n) Hg) as [k Hk]. fold cuts in Hk.
      assert (Nx : rpos x <> []). { intros E0. pose proof (walk_at Hx) as A. rewrite E0 in A. cbn in A. injection A as A. congruence. }
      assert (Ny : rpos y <> []). { intros E0. pose proof (walk_at Hy) as A. rewrite E0 in A. cbn in A. injection A as A. congruence. }
      apply In_nth_error in Gx as [i Gi]. apply In_nth_error in Gy as [j Gj].
      destruct (Nat.eq_dec i k) as [-> |Hi]; [|exfalso; exact (not_cut Ax Nx (Hk i _ Gi Hi Nx))].
      destruct (Nat.eq_dec j k) as [-> |Hj]; [|exfalso; exact (not_cut Ay Ny (Hk j _ Gj Hj Ny))]. congruence.
  - apply NoDup_filter. exact (nodup_unmap (walk_nodup n)).
Qed.
Lemma kept_filter {A} (P : A -> bool) l : kept (fun _ => True) l (filter P l).
Proof. induction l as [|x l IH]; cbn [filter]; [constructor|]. destruct (P x); constructor; auto. Qed.
Lemma kept_map {A B} (f : A -> B) l l' : kept (fun _ => True) l l' -> kept (fun _ => True) (map f l) (map f l').
Proof. induction 1; cbn [map]; constructor; auto. Qed.
Lemma some_kept n t : no_gaps n -> remove_cycles n = Ok t -> kept (fun _ => True) (paths n) (paths t).
Proof. intros Hn H. apply remove_ok in H as [_ ->]; [|exact Hn]. rewrite prune_paths, walk_paths. apply kept_map. apply kept_filter. Qed.
Lemma lone_group n : lone_root n <-> group (n_ind n) n = [([], n)].
Proof.
  unfold lone_root. rewrite walk_subtrees. destruct n as [w i t p cs]. unfold group. rewrite walk_positions, walk_eq. cbn [map filter rpos rnode fst snd n_ind]. rewrite Z.eqb_refl.
  split.
  - intros H. f_equal. apply filter_false. intros x Hx. apply Z.eqb_neq. intros E. apply In_nth_error in Hx as [k Hk].
    rewrite nth_error_map in Hk. destruct (nth_error (wgo (w, i, t, p) 0 cs) k) as [y|] eqn:Ey; [|discriminate Hk]. injection Hk as <-.
    specialize (H (S k) (rnode y)). cbn [nth_error] in H. rewrite nth_error_map, Ey in H. specialize (H eq_refl E). discriminate H.
  - intros H k m Hk E. destruct k as [|k]; [reflexivity|]. exfalso. cbn [nth_error] in Hk. apply nth_error_In, in_map_iff in Hk as (y & <- & Hy).
    injection H as H. assert (Hi : In (rpos y, rnode y) (filter (fun x => (n_ind (snd x) =? i)%Z) (map (fun x => (rpos x, rnode x)) (wgo (w, i, t, p) 0 cs)))).
    { apply filter_In. split; [apply (in_map (fun x => (rpos x, rnode x))); exact Hy|apply Z.eqb_eq; exact E]. }
    unfold pos in *. rewrite H in Hi.
    destruct Hi.
Qed.
Lemma assertion n : no_gaps n -> ~ lone_root n -> remove_cycles n = Err AssertionError.
Proof.
  intros Hn H. unfold remove_cycles. cbv zeta. rewrite nth_groups by exact Hn. rewrite root_group. destruct (tl (group (n_ind n) n)) as [|y l] eqn:E; [|reflexivity].
  exfalso. apply H. apply lone_group. rewrite root_group, E. reflexivity.
Qed.

(** ** The deepest is kept *)
Lemma deepest_spec cuts root l pre best d j k dk : let D := fun x : pos * node => get_depth cuts root (rev (fst x)) in
  j = List.length pre ->
  (exists y, nth_error pre best = Some y /\ D y = d /\ forall i z, nth_error pre i = Some z -> (D z <= d)%Z /\ (i < best -> (D z < d)%Z)) ->
  deepest cuts root j (best, d) l = (k, dk) ->
  exists y, nth_error (pre ++ l) k = Some y /\ D y = dk /\ forall i z, nth_error (pre ++ l) i = Some z -> (D z <= dk)%Z /\ (i < k -> (D z < dk)%Z).
Proof.
  intros D. revert pre best d j. induction l as [|x l IH]; intros pre best d j Hj (y & Hy & Dy & Hd); cbn [deepest].
  - intros E. injection E as <- <-. rewrite app_nil_r. exists y. auto.
  - cbv zeta. cbn [snd]. change (get_depth cuts root (rev (fst x))) with (D x). intros E.
    assert (Ea : pre ++ x :: l = (pre ++ [x]) ++ l) by (rewrite <- app_assoc; reflexivity). rewrite Ea.
    assert (Hb : best < List.length pre) by (apply nth_error_Some; congruence).
    destruct (d <? D x)%Z eqn:C.
    + apply Z.ltb_lt in C. apply (IH (pre ++ [x]) j (D x) (S j)); [rewrite app_length; cbn; lia| |exact E].
      exists x. split; [rewrite nth_error_app2, Hj, Nat.sub_diag by lia; reflexivity|]. split; [reflexivity|].
      intros i z Hz. destruct (Nat.lt_ge_cases i (List.length pre)) as [Hi|Hi].
      * rewrite nth_error_app1 in Hz by exact Hi. destruct (Hd i z Hz) as [Hd1 _]. lia.
      * rewrite nth_error_app2 in Hz by exact Hi. destruct (i - List.length pre) as [|q] eqn:Eq; [|destruct q; discriminate Hz]. injection Hz as <-. split; [lia|lia].
    + apply Z.ltb_ge in C. apply (IH (pre ++ [x]) best d (S j)); [rewrite app_length; cbn; lia| |exact E].
      exists y. split; [rewrite nth_error_app1 by exact Hb; exact Hy|]. split; [exact Dy|].
      intros i z Hz. destruct (Nat.lt_ge_cases i (List.length pre)) as [Hi|Hi].
      * rewrite nth_error_app1 in Hz by exact Hi. exact (Hd i z Hz).
      * rewrite nth_error_app2 in Hz by exact Hi. destruct (i - List.length pre) as [|q] eqn:Eq; [|destruct q; discriminate Hz]. injection Hz as <-. split; [lia|lia].
Qed.
Lemma keep_spec cuts g : g <> [] -> let D := fun x : pos * node => get_depth cuts [] (rev (fst x)) in
  exists y, nth_error g (keep_of cuts g) = Some y /\ forall i z, nth_error g i = Some z -> (D z <= D y)%Z /\ (i < keep_of cuts g -> (D z < D y)%Z).
Proof.
  intros Hg D. destruct g as [|x l]; [contradiction|]. cbn [keep_of]. destruct (deepest cuts [] 1 (0, get_depth cuts [] (rev (fst x))) l) as [k dk] eqn:E. cbn [fst].
  apply (deepest_spec (pre := [x])) in E; [|reflexivity|].
  - destruct E as (y & Hy & Dy & H). exists y. split; [exact Hy|]. fold (D y) in Dy. rewrite Dy. exact H.
  - exists x. split; [reflexivity|]. split; [reflexivity|]. intros i z Hz. destruct i as [|[|i]]; cbn in Hz; try discriminate. injection Hz as <-. fold (D x). lia.
Qed.

(** numbered lists *)
Lemma numbered_aux {A} (l : list A) k : map snd (combine (seq k (List.length l)) l) = l.
Proof. revert k. induction l as [|x l IH]; intros k; [reflexivity|]. cbn. rewrite IH. reflexivity. Qed.
Lemma numbered_snd {A} (l : list A) : map snd (numbered l) = l.
Proof. apply numbered_aux. Qed.
Lemma numbered_sorted {A} (l : list A) : StronglySorted (fun a b => fst a < fst b) (numbered l).
Proof.
  unfold numbered. generalize 0. induction l as [|x l IH]; intros k; cbn; constructor; [apply IH|]. clear IH. apply Forall_forall. intros [a y] H. cbn.
  apply in_combine_l, in_seq in H. lia.
Qed.
Lemma numbered_in {A} (l : list A) a x : In (a, x) (numbered l) <-> nth_error l a = Some x.
Proof.
  unfold numbered. assert (H : forall k, In (k + a, x) (combine (seq k (List.length l)) l) <-> nth_error l a = Some x).
  { revert a. induction l as [|y l IH]; intros a k; cbn; [destruct a; split; (contradiction || discriminate)|]. destruct a as [|a]; cbn.
    - rewrite Nat.add_0_r. split.
      + intros [E|E]; [injection E as <-; reflexivity|]. apply in_combine_l, in_seq in E. lia.
      + intros E. injection E as <-. left. reflexivity.
    - rewrite <- (IH a (S k)), <- Nat.add_succ_comm. split.
      + intros [E|E]; [injection E as E _; lia|exact E].
      + auto. }
  exact (H 0).
Qed.
Lemma numbered_map {A B} (f : A -> B) l : numbered (map f l) = map (fun ax => (fst ax, f (snd ax))) (numbered l).
Proof. unfold numbered. rewrite map_length. generalize 0. induction l as [|x l IH]; intros k; cbn; [reflexivity|]. rewrite IH. reflexivity. Qed.
Lemma sorted_filter {A} (R : A -> A -> Prop) P l : StronglySorted R l -> StronglySorted R (filter P l).
Proof.
  induction 1 as [|x l Hl IH Hx]; cbn [filter]; [constructor|]. destruct (P x); [|exact IH]. constructor; [exact IH|].
  rewrite Forall_forall in *. intros y Hy. apply Hx. apply filter_In in Hy. apply Hy.
Qed.
Lemma sorted_nth {A} (R : A -> A -> Prop) l i j x y : StronglySorted R l -> nth_error l i = Some x -> nth_error l j = Some y -> i < j -> R x y.
Proof.
  intros H. revert i j. induction H as [|z l Hl IH Hz]; intros i j Hi Hj L; [destruct i; discriminate|]. destruct j as [|j]; [lia|]. cbn in Hj.
  destruct i as [|i]; [injection Hi as <-; rewrite Forall_forall in Hz; apply Hz; apply nth_error_In with j; exact Hj|]. apply (IH i j); [exact Hi|exact Hj|lia].
Qed.

Fixpoint scgo (n : node) (k : nat) (cs : list node) : list pos :=
  match cs with [] => [] | c :: cs' => (if is_same_word n c then [[k]] else map (cons k) (self_cuts c)) ++ scgo n (S k) cs' end.
Lemma self_cuts_eq w i t p cs : self_cuts (Node w i t p cs) = scgo (Node w i t p cs) 0 cs.
Proof. cbn [self_cuts]. generalize 0. generalize (Node w i t p cs) as m. induction cs as [|c cs IH]; intros m k; [reflexivity|]. cbn [scgo]. rewrite <- IH. reflexivity. Qed.
Lemma paths_head n : exists l, paths n = [(n_word n, n_ind n, n_typ n, n_par n)] :: l.
Proof. destruct n as [w i t p cs]. eexists. reflexivity. Qed.
Lemma no_self n : Forall (fun l => no_repeat l = true) (paths n) -> self_cuts n = [].
Proof.
  induction n as [w i t p cs IH] using node_rect'. intros H. rewrite self_cuts_eq. cbn [paths] in H. inversion_clear H as [|? ? _ H'].
  assert (Hc : forall c l, In c cs -> In l (paths c) -> no_repeat ((w, i, t, p) :: l) = true).
  { intros c l Hc Hl. rewrite Forall_forall in H'. apply H'. apply in_concat. exists (map (cons (w, i, t, p)) (paths c)). split; [apply (in_map (fun c => map (cons (w, i, t, p)) (paths c))); exact Hc|apply in_map; exact Hl]. }
  clear H'. assert (E : forall ds k, incl ds cs -> scgo (Node w i t p cs) k ds = []).
  { induction ds as [|c ds IHd]; intros k Hi; [reflexivity|]. cbn [scgo]. rewrite (IHd (S k)) by (intros x Hx; apply Hi; right; exact Hx). rewrite app_nil_r.
    assert (Ic : In c cs) by (apply Hi; left; reflexivity). destruct (paths_head c) as [l0 E0].
    assert (I0 : In [(n_word c, n_ind c, n_typ c, n_par c)] (paths c)) by (rewrite E0; left; reflexivity). pose proof (Hc c _ Ic I0) as H1. cbn [no_repeat same_token] in H1. apply andb_true_iff in H1 as [H1 _]. apply negb_true_iff in H1.
    unfold is_same_word. cbn [n_word n_ind]. rewrite H1. rewrite Forall_forall in IH. rewrite IH; [reflexivity|exact Ic|].
    apply Forall_forall. intros l Hl. specialize (Hc c l Ic Hl). cbn [no_repeat] in Hc. destruct l as [|b l]; [reflexivity|]. apply andb_true_iff in Hc. apply Hc. }
  apply E. intros x Hx. exact Hx.
Qed.

Lemma scgo_in m k0 cs p : In p (scgo m k0 cs) <-> exists j c, nth_error cs j = Some c /\ if is_same_word m c then p = [k0 + j] else exists q, p = (k0 + j) :: q /\ In q (self_cuts c).
Proof.
  revert k0. induction cs as [|c cs IH]; intros k0; cbn [scgo].
  - split; [intros []|]. intros (j & c & H & _). destruct j; discriminate H.
  - rewrite in_app_iff, IH. split.
    + intros [H | (j & c' & Hc & H)].
      * exists 0, c. split; [reflexivity|]. rewrite Nat.add_0_r. destruct (is_same_word m c); [destruct H as [<-|[]]; reflexivity|].
        apply in_map_iff in H as (q & <- & H). exists q. auto.
      * exists (S j), c'. split; [exact Hc|]. rewrite Nat.add_succ_r. exact H.
    + intros ([|j] & c' & Hc & H); cbn [nth_error] in Hc.
      * left. injection Hc as <-. rewrite Nat.add_0_r in H. destruct (is_same_word m c); [left; auto|]. destruct H as (q & -> & H). apply in_map. exact H.
      * right. exists j, c'. split; [exact Hc|]. rewrite Nat.add_succ_r in H. exact H.
Qed.
Lemma root_not_cut w i t p cs : ~ In [] (self_cuts (Node w i t p cs)).
Proof. rewrite self_cuts_eq, scgo_in. intros (j & c & _ & H). destruct (is_same_word _ c); [discriminate H|]. destruct H as (q & E & _). discriminate E. Qed.
Lemma self_cuts_walk n p : In p (self_cuts n) -> exists x, In x (walk n) /\ rpos x = p.
Proof.
  revert p. induction n as [w i t q cs IH] using node_rect'. intros p. rewrite self_cuts_eq, scgo_in. intros (j & c & Hc & H). rewrite Forall_forall in IH.
  rewrite walk_eq. destruct (is_same_word _ c).
  - subst p. destruct c as [w' i' t' q' cs'] eqn:Ec. exists (below j (w, i, t, q) ([], ([(w', i', t', q')], c))). split; [|reflexivity]. right. apply wgo_in.
    exists j, c, ([], ([(w', i', t', q')], c)). subst c. split; [exact Hc|]. split; [rewrite walk_eq; left; reflexivity|reflexivity].
  - destruct H as (r & -> & H). apply (IH c) in H as (x & Hx & <-); [|apply nth_error_In with j; exact Hc].
    exists (below j (w, i, t, q) x). split; [|reflexivity]. right. apply wgo_in. exists j, c, x. auto.
Qed.
Lemma remove_self_prune n : remove_self_cycles n = prune (detached (self_cuts n)) n.
Proof.
  induction n as [w i t q cs IH] using node_rect'. rewrite prune_eq. cbn [remove_self_cycles]. f_equal. set (m := Node w i t q cs).
  assert (E : forall ds k, (forall j c, nth_error ds j = Some c -> nth_error cs (k + j) = Some c) -> incl ds cs ->
    List.concat (map (fun c => if (w =? n_word c)%string && (i =? n_ind c)%Z then [] else [remove_self_cycles c]) ds) = prgo (detached (self_cuts m)) k ds).
  { induction ds as [|c ds IHd]; intros k Hk Hi; [reflexivity|]. cbn [map List.concat prgo].
    assert (Hc : nth_error cs k = Some c) by (rewrite <- (Nat.add_0_r k); apply Hk; reflexivity).
    rewrite (IHd (S k)); [|intros j d Hj; rewrite Nat.add_succ_comm; apply Hk; exact Hj|intros d Hd; apply Hi; right; exact Hd]. f_equal. clear IHd.
    assert (Hin : forall r, In (k :: r) (self_cuts m) <-> if is_same_word m c then r = [] else In r (self_cuts c)).
    { intros r. unfold m at 1. rewrite self_cuts_eq. fold m. rewrite scgo_in. cbn [Nat.add]. split.
      - intros (j & d & Hd & H). destruct (is_same_word m d) eqn:Es.
        + injection H as <- ->. rewrite Hc in Hd. injection Hd as <-. rewrite Es. reflexivity.
        + destruct H as (r' & E & H). injection E as <- <-. rewrite Hc in Hd. injection Hd as <-. rewrite Es. exact H.
      - intros H. exists k, c. split; [exact Hc|]. destruct (is_same_word m c); [subst; reflexivity|]. exists r. auto. }
    change ((w =? n_word c)%string && (i =? n_ind c)%Z) with (is_same_word m c). destruct (is_same_word m c).
    - rewrite (proj2 (detached_in _ _)); [reflexivity|]. apply Hin. reflexivity.
    - rewrite (proj2 (detached_out _ _)).
      + f_equal. rewrite Forall_forall in IH. rewrite IH by (apply Hi; left; reflexivity). apply prune_ext. intros r Hr.
        destruct (detached (self_cuts c) r) eqn:D; symmetry; [apply detached_in; apply detached_in in D; apply Hin; exact D|].
        apply detached_out. apply detached_out in D. intros H. apply Hin in H. contradiction.
      + intros H. apply Hin in H. destruct c as [w' i' t' q' cs']. exact (root_not_cut H). }
  apply E; [auto|apply incl_refl].
Qed.
(** the first of the best, without numbers *)
Section Best.
Variable X : Type. Variable same : X -> X -> bool. Variable len : X -> nat.
Definition best (A : X -> bool) (W : list (nat * X)) (ax : nat * X) : bool :=
  A (snd ax) && forallb (fun ay => negb (A (snd ay)) || (negb (same (snd ax) (snd ay)) || (len (snd ay) <? len (snd ax)) || ((len (snd ay) =? len (snd ax)) && (fst ax <=? fst ay)))) W.
Fixpoint bests (A : X -> bool) (L R : list X) : list X :=
  match R with
  | [] => []
  | x :: R' => (if A x && (forallb (fun y => negb (A y) || (negb (same x y) || (len y <? len x))) L && forallb (fun y => negb (A y) || (negb (same x y) || (len y <=? len x))) R) then [x] else [])
               ++ bests A (L ++ [x]) R'
  end.
Lemma forallb_map {Y Z} (f : Y -> Z) P l : forallb P (map f l) = forallb (fun x => P (f x)) l.
Proof. induction l as [|x l IH]; [reflexivity|]. cbn. rewrite IH. reflexivity. Qed.
Lemma forallb_ext_in' {Y} (P Q : Y -> bool) l : (forall x, In x l -> P x = Q x) -> forallb P l = forallb Q l.
Proof. induction l as [|x l IH]; intros H; [reflexivity|]. cbn. rewrite H, IH; [reflexivity|intros y Hy; apply H; right; exact Hy|left; reflexivity]. Qed.
Lemma numbered_app {Y} (L R : list Y) k : combine (seq k (List.length (L ++ R))) (L ++ R) = combine (seq k (List.length L)) L ++ combine (seq (k + List.length L) (List.length R)) R.
Proof. revert k. induction L as [|x L IH]; intros k; cbn; [rewrite Nat.add_0_r; reflexivity|]. rewrite IH, Nat.add_succ_r. reflexivity. Qed.
Lemma bests_numbered A L R : map snd (filter (best A (numbered (L ++ R))) (combine (seq (List.length L) (List.length R)) R)) = bests A L R.
Proof.
  revert L. induction R as [|x R IH]; intros L; [reflexivity|]. cbn [List.length seq combine filter bests]. specialize (IH (L ++ [x])). rewrite <- app_assoc in IH. cbn [app] in IH.
  rewrite app_length in IH. cbn [List.length] in IH. rewrite Nat.add_1_r in IH. rewrite <- IH. clear IH.
  assert (E : best A (numbered (L ++ x :: R)) (List.length L, x) = A x && (forallb (fun y => negb (A y) || (negb (same x y) || (len y <? len x))) L && forallb (fun y => negb (A y) || (negb (same x y) || (len y <=? len x))) (x :: R))).
  { unfold best, numbered. cbn [fst snd]. f_equal. rewrite numbered_app, forallb_app. cbn [Nat.add]. f_equal.
    - rewrite <- (numbered_aux L 0) at 3. rewrite forallb_map. apply forallb_ext_in'. intros [a y] Hy. cbn [fst snd]. apply in_combine_l, in_seq in Hy. f_equal.
      destruct (List.length L <=? a) eqn:E; [apply Nat.leb_le in E; lia|]. rewrite andb_false_r, orb_false_r. reflexivity.
    - rewrite <- (numbered_aux (x :: R) (List.length L)) at 3. rewrite forallb_map. apply forallb_ext_in'. intros [a y] Hy. cbn [fst snd]. apply in_combine_l, in_seq in Hy. f_equal.
      destruct (List.length L <=? a) eqn:E; [|apply Nat.leb_gt in E; lia]. rewrite andb_true_r, <- orb_assoc. f_equal. rewrite Nat.leb_compare, Nat.ltb_compare, (Nat.eqb_compare (len y)). destruct (len y ?= len x); reflexivity. }
  rewrite E. destruct (A x && _); reflexivity.
Qed.
Lemma forallb_filter {Y} (A P : Y -> bool) l : forallb P (filter A l) = forallb (fun y => negb (A y) || P y) l.
Proof. induction l as [|x l IH]; [reflexivity|]. cbn. destruct (A x); cbn; rewrite IH; reflexivity. Qed.
Lemma bests_filter A L R : bests (fun _ => true) (filter A L) (filter A R) = bests A L R.
Proof.
  revert L. induction R as [|x R IH]; intros L; [reflexivity|]. cbn [bests]. rewrite <- IH. rewrite filter_app. cbn [filter]. destruct (A x) eqn:E; cbn [andb].
  - cbn [bests andb]. f_equal. change (x :: filter A R) with ([x] ++ filter A R). rewrite forallb_filter, !forallb_app, forallb_filter.
    rewrite (forallb_app _ [x] R). cbn [forallb negb orb]. rewrite E. cbn [negb orb]. reflexivity.
  - rewrite app_nil_r. reflexivity.
Qed.
Lemma best_filter A W : map snd (filter (best A (numbered W)) (numbered W)) = map snd (filter (best (fun _ => true) (numbered (filter A W))) (numbered (filter A W))).
Proof. transitivity (bests A [] W); [exact (bests_numbered A [] W)|]. rewrite <- bests_filter. symmetry. exact (bests_numbered (fun _ => true) [] (filter A W)). Qed.
End Best.

Section Deep.
Variable n : node.
Variable SC : list pos.
Let n0 := prune (detached SC) n.
Definition A (x : rec) : bool := alive (detached SC) (rpos x).
Definition same_ind (x y : rec) : bool := (n_ind (rnode x) =? n_ind (rnode y))%Z.
Definition nwalk := numbered (walk n).
Definition fd (ax : nat * rec) : bool := best same_ind (fun x => List.length (rpos x)) A nwalk ax.
Lemma in_walk a x : In (a, x) nwalk -> In x (walk n).
Proof. intros H. apply numbered_in, nth_error_In in H. exact H. Qed.
Lemma fd_spec a x : A x = true -> fd (a, x) = true <->
  forall b y, In (b, y) nwalk -> A y = true -> n_ind (rnode y) = n_ind (rnode x) -> List.length (rpos y) < List.length (rpos x) \/ (List.length (rpos y) = List.length (rpos x) /\ a <= b).
Proof.
  intros Ax. unfold fd, best. cbn [fst snd]. rewrite Ax. cbn [andb]. rewrite forallb_forall. split.
  - intros H b y Hy Ay E. specialize (H _ Hy). cbn [fst snd] in H. unfold same_ind in H. rewrite Ay, E, Z.eqb_refl in H. cbn [negb orb] in H.
    apply orb_true_iff in H as [H|H]; [apply Nat.ltb_lt in H; lia|]. apply andb_true_iff in H as [H1%Nat.eqb_eq H2%Nat.leb_le]. lia.
  - intros H [b y] Hy. cbn [fst snd]. destruct (A y) eqn:Ay; [|reflexivity]. unfold same_ind. destruct (n_ind (rnode x) =? n_ind (rnode y))%Z eqn:E; [|reflexivity].
    apply Z.eqb_eq in E. cbn [negb orb]. apply orb_true_iff.
    destruct (H _ _ Hy Ay (eq_sym E)) as [H1|[H1 H2]]; [left; apply Nat.ltb_lt; lia|right; apply andb_true_iff; split; [apply Nat.eqb_eq; lia|apply Nat.leb_le; exact H2]].
Qed.
Definition entries (i : Z) : list (nat * rec) := filter (fun ax => (n_ind (rnode (snd ax)) =? i)%Z) nwalk.
Lemma group_entries i : group i n = map (fun ax => (rpos (snd ax), rnode (snd ax))) (entries i).
Proof.
  unfold group, entries, nwalk. rewrite walk_positions, filter_map. cbn [snd]. rewrite <- (numbered_snd (walk n)) at 1. rewrite filter_map, map_map. reflexivity.
Qed.
Lemma entries_in i a x : In (a, x) (entries i) <-> In (a, x) nwalk /\ n_ind (rnode x) = i.
Proof. unfold entries. rewrite filter_In, Z.eqb_eq. reflexivity. Qed.
Definition reach (x : rec) : Z := if A x then Z.of_nat (List.length (rpos x)) else (-1)%Z.
Lemma entries_fd i k y : nth_error (entries i) k = Some y ->
  (forall j z, nth_error (entries i) j = Some z -> (reach (snd z) <= reach (snd y))%Z /\ (j < k -> (reach (snd z) < reach (snd y))%Z)) ->
  forall j z, nth_error (entries i) j = Some z -> A (snd z) = true -> fd z = true <-> j = k.
Proof.
  intros Hk Hmax. pose proof (sorted_filter (fun ax => (n_ind (rnode (snd ax)) =? i)%Z) (numbered_sorted (walk n))) as Hs. fold nwalk in Hs. fold (entries i) in Hs.
  destruct y as [b y]. pose proof (nth_error_In _ _ Hk) as Iy. apply entries_in in Iy as [Iy Ey].
  intros j [a x] Hj Ax. cbn [snd] in Ax. pose proof (nth_error_In _ _ Hj) as Ix. apply entries_in in Ix as [Ix Ex]. rewrite (fd_spec a Ax).
  assert (Ay : A y = true).
  { destruct (Hmax j _ Hj) as [M _]. cbn [snd] in M. unfold reach in M. rewrite Ax in M. destruct (A y); [reflexivity|lia]. }
  assert (Hmax' : forall j z, nth_error (entries i) j = Some z -> A (snd z) = true -> List.length (rpos (snd z)) <= List.length (rpos y) /\ (j < k -> List.length (rpos (snd z)) < List.length (rpos y))).
  { intros m z Hz Az. destruct (Hmax m z Hz) as [M1 M2]. unfold reach in M1, M2. cbn [snd] in M1, M2. rewrite Az, Ay in M1, M2. split; [lia|]. intros L. specialize (M2 L). lia. }
  clear Hmax. split.
  - intros H. destruct (H b y Iy Ay (eq_trans Ey (eq_sym Ex))) as [H1|[H1 H2]]; [pose proof (Hmax' j _ Hj Ax); cbn [snd] in *; lia|].
    destruct (Nat.lt_trichotomy j k) as [L|[L|L]]; [|exact L|].
    + destruct (Hmax' j _ Hj Ax) as [_ M]. specialize (M L). cbn [snd] in M. lia.
    + pose proof (sorted_nth Hs Hk Hj L) as M. cbn [fst] in M. lia.
  - intros ->. rewrite Hk in Hj. injection Hj as -> ->. intros c z Iz Az Ez.
    assert (Iz' : In (c, z) (entries i)) by (apply entries_in; split; [exact Iz|congruence]). apply In_nth_error in Iz' as [m Hm].
    destruct (Hmax' m _ Hm Az) as [M1 M2]. cbn [snd] in *. destruct (Nat.eq_dec (List.length (rpos z)) (List.length (rpos x))) as [El|El]; [right; split; [exact El|]|left; lia].
    destruct (Nat.lt_trichotomy m k) as [L|[L|L]]; [specialize (M2 L); lia|subst m; rewrite Hk in Hm; injection Hm as -> _; lia|].
    pose proof (sorted_nth Hs Hk Hm L) as M. cbn [fst] in M. lia.
Qed.

Lemma deepest_best : deepest_paths n0 = map (fun ax => rpath (snd ax)) (filter fd nwalk).
Proof.
  rewrite <- (map_map snd rpath). unfold fd, nwalk. rewrite best_filter, map_map. unfold deepest_paths, n0. rewrite prune_paths. change (fun x : rec => alive (detached SC) (rpos x)) with A. set (W := filter A (walk n)).
  rewrite numbered_map at 1. rewrite filter_map, map_map. cbn [snd]. f_equal. apply filter_ext_in. intros [a x] Hx. cbn [fst snd].
  assert (HW : forall b y, In (b, y) (numbered W) -> In y (walk n)) by (intros b y Hy; apply numbered_in, nth_error_In, filter_In in Hy; apply Hy).
  unfold first_deepest, best. cbn [fst snd andb]. rewrite numbered_map, forallb_map. apply forallb_ext_in'. intros [b y] Hy. cbn [fst snd negb orb].
  unfold same_end, same_ind. rewrite (walk_end (HW _ _ Hx)), (walk_end (HW _ _ Hy)), (walk_length (HW _ _ Hx)), (walk_length (HW _ _ Hy)). reflexivity.
Qed.

Section Leaves.
Hypothesis Hleaf : copies_are_leaves n0.
Definition reached (done : list Z) (cuts : list pos) : Prop :=
  (forall p, In p SC -> In p cuts) /\
  forall a x, In (a, x) nwalk -> A x = true -> In (rpos x) cuts <-> rpos x <> [] /\ In (n_ind (rnode x)) done /\ fd (a, x) = false.
Lemma alive_walk : filter A (walk n) = map snd (filter (fun ax => A (snd ax)) nwalk).
Proof. unfold nwalk. rewrite <- (numbered_snd (walk n)) at 1. rewrite filter_map. reflexivity. Qed.
Lemma n0_paths : paths n0 = map (fun ax => rpath (snd ax)) (filter (fun ax => A (snd ax)) nwalk).
Proof. unfold n0. rewrite prune_paths. change (fun x : rec => alive (detached SC) (rpos x)) with A. rewrite alive_walk, map_map. reflexivity. Qed.
Lemma fd_leaf a x : In (a, x) nwalk -> A x = true -> fd (a, x) = false -> n_children (prune (fun q => detached SC (rpos x ++ q)) (rnode x)) = [].
Proof.
  intros H Ax F. pose proof (in_walk H) as Wx. pose proof (sorted_filter (fun ax => A (snd ax)) (numbered_sorted (walk n))) as Hs. fold nwalk in Hs.
  assert (Hf : In (a, x) (filter (fun ax => A (snd ax)) nwalk)) by (apply filter_In; auto). apply In_nth_error in Hf as [k Hk].
  apply (Hleaf (k := k) (l := rpath x)).
  - rewrite n0_paths, nth_error_map, Hk. reflexivity.
  - unfold n0. rewrite prune_subtrees. change (fun x : rec => alive (detached SC) (rpos x)) with A. rewrite alive_walk, !nth_error_map, Hk. reflexivity.
  - destruct (first_deepest (paths n0) (k, rpath x)) eqn:E; [|reflexivity]. exfalso.
    revert F. cut (fd (a, x) = true); [congruence|]. apply (fd_spec a Ax). intros b y Hy Ay Ey.
    assert (Hg : In (b, y) (filter (fun ax => A (snd ax)) nwalk)) by (apply filter_In; auto). apply In_nth_error in Hg as [m Hm].
    unfold first_deepest in E. rewrite forallb_forall in E.
    assert (Iy : In (m, rpath y) (numbered (paths n0))) by (apply numbered_in; rewrite n0_paths, nth_error_map, Hm; reflexivity).
    specialize (E _ Iy). cbn [fst snd] in E. unfold same_end in E. rewrite (walk_end Wx), (walk_end (in_walk Hy)), Ey, Z.eqb_refl, (walk_length Wx), (walk_length (in_walk Hy)) in E. cbn [negb orb] in E.
    apply orb_true_iff in E as [E|E]; [apply Nat.ltb_lt in E; lia|]. apply andb_true_iff in E as [E1%Nat.eqb_eq E2%Nat.leb_le]. right. split; [lia|].
    destruct (Nat.eq_dec k m) as [->|Hkm]; [rewrite Hk in Hm; injection Hm as -> _; lia|]. pose proof (sorted_nth Hs Hk Hm ltac:(lia)) as M. cbn [fst] in M. lia.
Qed.
Lemma leaf_prefix a x y q : In (a, x) nwalk -> A x = true -> fd (a, x) = false -> In y (walk n) -> A y = true -> rpos y = rpos x ++ q -> q = [].
Proof.
  intros Hx Ax F Hy Ay E. pose proof (walk_at Hy) as B. rewrite E, at_app, (walk_at (in_walk Hx)) in B. destruct q as [|k q]; [reflexivity|]. exfalso. cbn [at_pos] in B.
  pose proof (fd_leaf Hx Ax F) as L. destruct (rnode x) as [w i t p cs]. cbn [n_children] in B. destruct (nth_error cs k) eqn:Ek; [|discriminate B].
  assert (D : detached SC (rpos x ++ [k]) = true) by (apply (nil_children L); apply nth_error_Some; congruence).
  unfold A in Ay. rewrite alive_spec in Ay. rewrite (Ay (rpos x ++ [k]) q) in D; [discriminate D|rewrite E, <- app_assoc; reflexivity|destruct (rpos x); discriminate].
Qed.
Lemma alive_prefix P p q : alive P (p ++ q) = true -> alive P p = true.
Proof. rewrite !alive_spec. intros H r u E. apply (H r (u ++ q)). rewrite E, app_assoc. reflexivity. Qed.
Lemma reached_alive done cuts x : reached done cuts -> In x (walk n) -> A x = true -> ~ In (rpos x) cuts -> alive (detached cuts) (rpos x) = true.
Proof.
  intros [R0 R] Hx Ax Hc. apply alive_spec. intros q r E Hq. apply detached_out. intros Hi.
  pose proof (walk_at Hx) as B. rewrite E, at_app in B. destruct (at_pos n q) as [m|] eqn:Em; [|discriminate B]. apply prefix_walk in Em as (y & Hy & Ey).
  assert (Ay : A y = true) by (unfold A in *; rewrite E in Ax; rewrite Ey; exact (alive_prefix Ax)).
  pose proof (In_nth_error _ _ Hy) as [a Ha]. apply numbered_in in Ha. fold nwalk in Ha.
  rewrite <- Ey in Hi. pose proof (proj1 (R a y Ha Ay) Hi) as (_ & _ & F).
  assert (r = []) by (apply (leaf_prefix Ha Ay F Hx Ax); rewrite Ey; exact E). subst r. rewrite app_nil_r in E. apply Hc. rewrite E, <- Ey. exact Hi.
Qed.
Lemma reached_dead done cuts x : reached done cuts -> A x = false -> alive (detached cuts) (rpos x) = false.
Proof.
  intros [R0 _] Ax. destruct (alive (detached cuts) (rpos x)) eqn:E; [|reflexivity]. rewrite <- Ax. symmetry. rewrite alive_spec in E. apply alive_spec.
  intros q r Eq Hq. apply detached_out. intros Hi. specialize (E q r Eq Hq). apply detached_out in E. auto.
Qed.
Lemma num_inj a b x y : In (a, x) nwalk -> In (b, y) nwalk -> rpos x = rpos y -> a = b /\ x = y.
Proof.
  intros Hx Hy E. pose proof (pos_inj (in_walk Hx) (in_walk Hy) E) as Exy. subst y. split; [|reflexivity]. apply numbered_in in Hx, Hy.
  exact (nodup_nth (nodup_unmap (walk_nodup n)) Hx Hy).
Qed.
Lemma reached_step done cuts i : reached done cuts -> ~ In i done -> reached (i :: done) (break_group [] cuts (group i n)).
Proof.
  intros R Hi. pose proof R as [R0 R1]. split; [intros p Hp; apply break_group_spec; left; apply R0; exact Hp|].
  intros a x Hx Ax. rewrite break_group_spec, (R1 a x Hx Ax).
  assert (Dep : forall j z, nth_error (entries i) j = Some z -> get_depth cuts [] (rev (rpos (snd z))) = reach (snd z)).
  { intros j [b z] Hz. apply nth_error_In, entries_in in Hz as [Hz Ez]. cbn [snd]. unfold reach. destruct (A z) eqn:Az.
    - apply depth_alive. apply (reached_alive R (in_walk Hz) Az). intros Hc. apply (R1 b z Hz Az) in Hc as (_ & Hd & _). congruence.
    - apply depth_dead. exact (reached_dead R Az). }
  destruct (entries i) as [|e es] eqn:Ees.
  - rewrite group_entries, Ees. cbn [map]. split.
    + intros [(Hp & Hd & F) | (j & y & Hj & _)]; [|destruct j; discriminate Hj]. repeat split; auto. right. exact Hd.
    + intros (Hp & [Hd|Hd] & F); [|left; auto].
      exfalso. assert (H : In (a, x) []) by (rewrite <- Ees; apply entries_in; auto). destruct H.
  - assert (Hg : group i n <> []) by (rewrite group_entries, Ees; discriminate). rewrite <- Ees in Dep. clear e es Ees.
    destruct (keep_spec cuts Hg) as (y & Hy & Hmax). set (k := keep_of cuts (group i n)) in *.
    rewrite group_entries in Hy, Hmax |- *. rewrite nth_error_map in Hy. destruct (nth_error (entries i) k) as [e|] eqn:Hk; [|discriminate Hy]. injection Hy as <-.
    assert (Hall : forall j z, nth_error (entries i) j = Some z -> A (snd z) = true -> fd z = true <-> j = k).
    { apply (entries_fd Hk). intros j z Hz. specialize (Hmax j (rpos (snd z), rnode (snd z))). rewrite nth_error_map, Hz in Hmax. specialize (Hmax eq_refl). cbn [fst] in Hmax.
      rewrite (Dep j z Hz), (Dep k e Hk) in Hmax. exact Hmax. }
    split.
    + intros [(Hp & Hdn & F) | (j & z & Hj & Hne & Ep & Hp)]; [repeat split; auto; right; exact Hdn|].
      rewrite nth_error_map in Hj. destruct (nth_error (entries i) j) as [[b u]|] eqn:Hz; [|discriminate Hj]. injection Hj as <-. cbn [fst snd] in Ep.
      pose proof (nth_error_In _ _ Hz) as Iz. apply entries_in in Iz as [Iz Ez]. destruct (num_inj Iz Hx Ep) as [-> ->].
      repeat split; auto; [left; auto|]. destruct (fd (a, x)) eqn:F; [|reflexivity]. apply (Hall j _ Hz Ax) in F. contradiction.
    + intros (Hp & [Hdn|Hdn] & F); [|left; auto].
      right. assert (Ix : In (a, x) (entries i)) by (apply entries_in; auto). apply In_nth_error in Ix as [j Hj].
      exists j, (rpos x, rnode x). rewrite nth_error_map, Hj. repeat split; auto. intros ->. pose proof (Hall k _ Hj Ax) as Q. rewrite (proj2 Q eq_refl) in F. discriminate F.
Qed.
Lemma fold_filter is cuts : fold_left (break_group []) (filter (fun g => match g with [] => false | _ => true end) (map (fun i => group (Z.of_nat i) n) is)) cuts
  = fold_left (fun c i => break_group [] c (group (Z.of_nat i) n)) is cuts.
Proof.
  revert cuts. induction is as [|i is IH]; intros cuts; [reflexivity|]. cbn [map filter fold_left]. destruct (group (Z.of_nat i) n) as [|x g]; [apply IH|]. cbn [fold_left]. apply IH.
Qed.
Lemma reached_fold is done cuts : reached done cuts -> NoDup is -> (forall i, In i is -> ~ In (Z.of_nat i) done) ->
  exists done', reached done' (fold_left (fun c i => break_group [] c (group (Z.of_nat i) n)) is cuts) /\ forall i, In i is \/ In (Z.of_nat i) done -> In (Z.of_nat i) done'.
Proof.
  revert done cuts. induction is as [|i is IH]; intros done cuts R Hn Hd; cbn [fold_left].
  - exists done. split; [exact R|]. intros i [[]|H]. exact H.
  - inversion_clear Hn as [|? ? Hi His]. destruct (IH (Z.of_nat i :: done) (break_group [] cuts (group (Z.of_nat i) n))) as (done' & R' & H').
    + apply reached_step; [exact R|]. apply Hd. left. reflexivity.
    + exact His.
    + intros j Hj [E|E]; [apply Hi; replace i with j by lia; exact Hj|]. apply (Hd j); [right; exact Hj|exact E].
    + exists done'. split; [exact R'|]. intros j [[->|Hj]|Hj]; apply H'; [right; left; reflexivity|left; exact Hj|right; right; exact Hj].
Qed.
Lemma deepest_kept : no_gaps n -> lone_root n -> SC = self_cuts n -> (forall p, In p SC -> exists x, In x (walk n) /\ rpos x = p) -> exists t, remove_cycles n = Ok t /\ paths t = deepest_paths n0.
Proof.
  intros Hn Hl Hs Hsc. pose proof (proj1 (lone_group n) Hl) as Hr. eexists. split; [apply ok_remove; assumption|]. rewrite <- Hs, prune_paths, deepest_best. unfold groups. rewrite fold_filter.
  destruct (@reached_fold (seq 0 (S (top_index n))) [] SC) as (done & R & Hdone).
  { split; [auto|]. intros a x Hx Ax. split; [|intros (_ & [] & _)]. intros Hi. exfalso. unfold A in Ax. rewrite alive_spec in Ax.
    destruct (rpos x) as [|k p] eqn:Ep.
    - assert (E0 : ~ In [] SC) by (rewrite Hs; destruct n as [w i t q cs]; intros H; exact (root_not_cut H)). contradiction.
    - specialize (Ax (k :: p) []). rewrite app_nil_r in Ax. specialize (Ax eq_refl ltac:(discriminate)). apply detached_out in Ax. contradiction. }
  { apply seq_NoDup. } { intros i _ []. }
  set (cuts := fold_left _ _ _) in *. pose proof R as [R0 R1].
  rewrite <- (numbered_snd (walk n)) at 1. fold nwalk. rewrite filter_map, map_map. f_equal. apply filter_ext_in. intros [a x] Hx. cbn [snd]. pose proof (in_walk Hx) as Wx.
  assert (Ix : In (rpos x, rnode x) (positions n)) by (rewrite walk_positions; apply (in_map (fun x => (rpos x, rnode x))); exact Wx).
  pose proof (positions_nonneg Hn Ix) as N. cbn [snd] in N.
  assert (Dx : In (n_ind (rnode x)) done).
  { replace (n_ind (rnode x)) with (Z.of_nat (Z.to_nat (n_ind (rnode x)))) by lia. apply Hdone. left. apply in_seq.
    assert (Z.to_nat (n_ind (rnode x)) <= top_index n); [|lia]. apply list_max_in. exact (in_map (fun x => Z.to_nat (n_ind (snd x))) _ _ Ix). }
  destruct (A x) eqn:Ax.
  2:{ rewrite (reached_dead R Ax). unfold fd, best. cbn [snd]. rewrite Ax. reflexivity. }
  destruct (fd (a, x)) eqn:F.
  - apply (reached_alive R Wx Ax). intros Hc. apply (R1 a x Hx Ax) in Hc as (_ & _ & Fx). congruence.
  - destruct (alive (detached cuts) (rpos x)) eqn:B; [|reflexivity]. exfalso. destruct (rpos x) as [|k p] eqn:Ep.
    + assert (T : fd (a, x) = true); [|congruence]. apply (fd_spec a Ax). intros b y Hy Ay E. assert (Wy := in_walk Hy).
      assert (Ex : rnode x = n) by (pose proof (walk_at Wx) as B'; rewrite Ep in B'; cbn in B'; congruence).
      assert (Iy : In (rpos y, rnode y) (group (n_ind n) n)).
      { apply group_in. split; [rewrite walk_positions; apply (in_map (fun x => (rpos x, rnode x))); exact Wy|cbn; congruence]. }
      rewrite Hr in Iy. destruct Iy as [Iy|[]]. injection Iy as Iy _. right. rewrite Ep, <- Iy. split; [reflexivity|].
      destruct (num_inj Hx Hy) as [-> _]; [congruence|]. lia.
    + apply (not_cut B); [discriminate|]. rewrite <- Ep. apply (R1 a x Hx Ax). rewrite Ep. repeat split; auto. discriminate.
Qed.
End Leaves.
End Deep.
Lemma deepest_ok n : no_gaps n -> lone_root n -> copies_are_leaves (remove_self_cycles n) -> exists t, remove_cycles n = Ok t /\ paths t = deepest_paths (remove_self_cycles n).
Proof.
  rewrite remove_self_prune. intros Hn Hl Hf. apply (deepest_kept Hf Hn Hl eq_refl). apply self_cuts_walk.
Qed.

(** ** No word is lost *)
Lemma best_exists (ls : list (list token)) l : In l ls -> end_ind l <> None -> exists k l', nth_error ls k = Some l' /\ end_ind l' = end_ind l /\ first_deepest ls (k, l') = true.
Proof.
  intros Hl He. set (same := fun l' => same_end l l').
  assert (H : forall (m : list (nat * list token)), (exists k l', In (k, l') m /\ same l' = true) -> exists k l', In (k, l') m /\ same l' = true /\
    forall b l2, In (b, l2) m -> same l2 = true -> List.length l2 < List.length l' \/ (List.length l2 = List.length l' /\ k <= b)).
  { induction m as [|[c u] m IH]; intros (k & l' & Hk & Hs); [destruct Hk|].
    destruct (existsb (fun bl => same (snd bl)) m) eqn:E.
    - apply existsb_exists in E as ([b l2] & Hb & Hs2). destruct IH as (k1 & l1 & H1 & S1 & M1); [exists b, l2; auto|].
      destruct (same u) eqn:Eu.
      + destruct (Nat.lt_trichotomy (List.length u) (List.length l1)) as [L|[L|L]].
        * exists k1, l1. split; [right; exact H1|]. split; [exact S1|]. intros b' l3 [E3|H3] S3; [injection E3 as <- <-; left; exact L|exact (M1 _ _ H3 S3)].
        * destruct (Nat.le_gt_cases k1 c) as [Lc|Lc].
          -- exists k1, l1. split; [right; exact H1|]. split; [exact S1|]. intros b' l3 [E3|H3] S3; [injection E3 as <- <-; right; auto|exact (M1 _ _ H3 S3)].
          -- exists c, u. split; [left; reflexivity|]. split; [exact Eu|]. intros b' l3 [E3|H3] S3; [injection E3 as <- <-; right; auto|]. destruct (M1 _ _ H3 S3); lia.
        * exists c, u. split; [left; reflexivity|]. split; [exact Eu|]. intros b' l3 [E3|H3] S3; [injection E3 as <- <-; right; auto|]. destruct (M1 _ _ H3 S3); lia.
      + exists k1, l1. split; [right; exact H1|]. split; [exact S1|]. intros b' l3 [E3|H3] S3; [injection E3 as <- <-; congruence|exact (M1 _ _ H3 S3)].
    - assert (N : forall b l2, In (b, l2) m -> same l2 = false).
      { intros b l2 Hb. destruct (same l2) eqn:S2; [|reflexivity]. rewrite <- E. symmetry. apply existsb_exists. exists (b, l2). auto. }
      destruct Hk as [Ek|Hk]; [|rewrite (N _ _ Hk) in Hs; discriminate Hs]. injection Ek as -> ->.
      exists k, l'. split; [left; reflexivity|]. split; [exact Hs|]. intros b l2 [E2|H2] S2; [injection E2 as <- <-; right; auto|]. rewrite (N _ _ H2) in S2. discriminate S2. }
  assert (Sl : same l = true) by (unfold same, same_end; destruct (end_ind l); [apply Z.eqb_refl|contradiction]).
  destruct (H (numbered ls)) as (k & l' & Hk & Hs & M).
  { apply In_nth_error in Hl as [k Hk]. exists k, l. split; [apply numbered_in; exact Hk|exact Sl]. }
  assert (El : end_ind l' = end_ind l).
  { unfold same, same_end in Hs. destruct (end_ind l), (end_ind l'); try discriminate. apply Z.eqb_eq in Hs. congruence. }
  exists k, l'. split; [apply numbered_in; exact Hk|]. split; [exact El|]. unfold first_deepest. apply forallb_forall. intros [b l2] Hb. cbn [fst snd].
  assert (Es : same_end l' l2 = same l2) by (unfold same, same_end; rewrite El; reflexivity). rewrite Es. destruct (same l2) eqn:S2; [|reflexivity]. cbn [negb orb].
  apply orb_true_iff. destruct (M _ _ Hb S2) as [L|[L1 L2]]; [left; apply Nat.ltb_lt; exact L|right; apply andb_true_iff; split; [apply Nat.eqb_eq; exact L1|apply Nat.leb_le; exact L2]].
Qed.
Lemma deepest_inds n t : paths t = deepest_paths n -> forall i, In i (inds t) <-> In i (inds n).
Proof.
  intros H i. assert (Hs : forall m, In i (inds m) <-> In (Some i) (map end_ind (paths m))).
  { intros m. rewrite paths_inds, in_map_iff. split; [intros Hi; exists i; auto|]. intros (j & E & Hj). congruence. }
  rewrite !Hs, H. unfold deepest_paths. rewrite !in_map_iff. split.
  - intros (l & E & Hl). apply in_map_iff in Hl as ([a l'] & El & Hl). cbn [snd] in El. subst l'. apply filter_In in Hl as [Hl _].
    exists l. split; [exact E|]. apply numbered_in, nth_error_In in Hl. exact Hl.
  - intros (l & E & Hl). destruct (best_exists Hl) as (k & l' & Hk & El & F); [congruence|]. exists l'. split; [congruence|].
    apply in_map_iff. exists (k, l'). split; [reflexivity|]. apply filter_In. split; [apply numbered_in; exact Hk|exact F].
Qed.
Lemma prune_linked P p n : linked p n -> linked p (prune P n).
Proof.
  revert P p. induction n as [w i t q cs IH] using node_rect'. intros P p H. rewrite prune_eq. inversion H as [? ? ? ? ? Hl]; subst. constructor.
  clear H. generalize 0. induction cs as [|c cs IHc]; intros k; cbn [prgo]; [constructor|]. inversion_clear Hl as [|? ? Hc Hcs]. inversion_clear IH as [|? ? Ic Ics].
  apply Forall_app. split; [destruct (P [k]); repeat constructor; apply Ic; exact Hc|apply IHc; assumption].
Qed.
Lemma cycles_linked n t p : no_gaps n -> remove_cycles n = Ok t -> linked p n -> linked p t.
Proof. intros Hn H L. apply remove_ok in H as [_ ->]; [|exact Hn]. apply prune_linked. exact L. Qed.

(** ** The groups are those of [get_nodes] *)
Lemma at_index_group n i : at_index i n = map snd (group i n).
Proof.
  unfold at_index, group. rewrite walk_subtrees, walk_positions, !filter_map, map_map. cbn [snd]. reflexivity.
Qed.
Lemma sorted_same (l m : list Z) : StronglySorted Z.lt l -> StronglySorted Z.lt m -> (forall i, In i l <-> In i m) -> l = m.
Proof.
  intros Hl. revert m. induction Hl as [|x l Hl IH Hx]; intros m Hm H.
  - destruct m as [|y m]; [reflexivity|]. exfalso. apply (proj2 (H y)). left. reflexivity.
  - destruct Hm as [|y m Hm Hy]; [exfalso; apply (proj1 (H x)); left; reflexivity|]. rewrite Forall_forall in Hx, Hy.
    assert (x = y).
    { destruct (proj1 (H x) (or_introl eq_refl)) as [E|E]; [congruence|]. destruct (proj2 (H y) (or_introl eq_refl)) as [E'|E']; [congruence|]. specialize (Hx _ E'). specialize (Hy _ E). lia. }
    subst y. f_equal. apply IH; [exact Hm|]. intros i. split; intros Hi.
    + destruct (proj1 (H i) (or_intror Hi)) as [E|E]; [subst; specialize (Hx _ Hi); lia|exact E].
    + destruct (proj2 (H i) (or_intror Hi)) as [E|E]; [subst; specialize (Hy _ Hi); lia|exact E].
Qed.
Lemma sorted_nats a m : StronglySorted Z.lt (map Z.of_nat (seq a m)).
Proof.
  revert a. induction m as [|m IH]; intros a; cbn [seq map]; constructor; [apply IH|]. apply Forall_forall. intros z (k & <- & Hk)%in_map_iff. apply in_seq in Hk. lia.
Qed.
Lemma groups_of_indices n is : (forall m, In m (subtrees n) -> (0 <= n_ind m)%Z) -> indices is n -> map (map snd) (groups n) = map (fun i => at_index i n) is.
Proof.
  intros Hn [Hs Hi]. set (nonempty := fun g : list (pos * node) => match g with [] => false | _ => true end).
  assert (E : is = filter (fun i => nonempty (group i n)) (map Z.of_nat (seq 0 (S (top_index n))))).
  { apply sorted_same; [exact Hs|apply sorted_filter; apply sorted_nats|]. intros i. rewrite Hi, filter_In. split.
    - intros (m & Hm & E). rewrite walk_subtrees in Hm. apply in_map_iff in Hm as (x & <- & Hx).
      assert (Ix : In (rpos x, rnode x) (positions n)) by (rewrite walk_positions; apply (in_map (fun x => (rpos x, rnode x))); exact Hx).
      pose proof (Hn (rnode x)) as H0. rewrite walk_subtrees in H0. specialize (H0 (in_map rnode _ _ Hx)). rewrite E in H0. split.
      + apply in_map_iff. exists (Z.to_nat i). split; [lia|]. apply in_seq. assert (Z.to_nat i <= top_index n); [|lia].
        rewrite <- E. apply list_max_in. exact (in_map (fun x => Z.to_nat (n_ind (snd x))) _ _ Ix).
      + assert (F : In (rpos x, rnode x) (group i n)) by (apply group_in; auto). destruct (group i n); [destruct F|reflexivity].
    - intros [_ H]. destruct (group i n) as [|y l] eqn:E; [discriminate H|]. assert (F : In y (group i n)) by (rewrite E; left; reflexivity).
      apply group_in in F as [F Ey]. exists (snd y). split; [|exact Ey]. rewrite walk_positions in F. apply in_map_iff in F as (x & <- & Hx).
      rewrite walk_subtrees. apply (in_map rnode). exact Hx. }
  rewrite E. unfold groups. fold nonempty. rewrite <- (map_map Z.of_nat (fun i => group i n)). rewrite filter_map, map_map. apply map_ext. intros i. symmetry. apply at_index_group.
Qed.
