(** Chart cells (proofs only). *)
From Verif Require Import PyBase PyFacts CellModel CellSpec.
Set Implicit Arguments. Unset Strict Implicit.

Lemma same_tree_iff a b : same_tree a b = true <-> a = b.
Proof.
  destruct a, b. unfold same_tree. cbn. rewrite !andb_true_iff, !Nat.eqb_eq, Z.eqb_eq. split; [intros [[-> ->] ->]; auto|intros [= -> -> ->]; auto].
Qed.
Lemma same_refl a : same_tree a a = true. Proof. now apply same_tree_iff. Qed.
(** sortedness as a recursive predicate *)
Fixpoint desc (l : list ptree) : Prop := match l with [] => True | a :: l' => Forall (fun b => (t_score b <= t_score a)%Z) l' /\ desc l' end.
Lemma desc_app l1 l2 : desc (l1 ++ l2) <-> desc l1 /\ desc l2 /\ (forall a b, In a l1 -> In b l2 -> (t_score b <= t_score a)%Z).
Proof.
  induction l1 as [|x l1 IH]; cbn [app desc]; [split; [intro; repeat split; auto; intros ? ? []|tauto]|].
  rewrite IH, Forall_app. split.
  - intros [[H1 H2] (H3 & H4 & H5)]. repeat split; auto. intros a b [<-|I] J; auto. rewrite Forall_forall in H2. auto.
  - intros [[H1 H2] [H3 H4]]. repeat split; auto; [apply Forall_forall; intros; apply H4; cbn; auto|]. intros; apply H4; cbn; auto.
Qed.
Lemma desc_descending l : desc l <-> descending l.
Proof.
  split.
  - induction l as [|x l IH]; intros D i j a b L A B; [destruct i; discriminate|]. destruct D as [D1 D2]. destruct i, j; cbn in A, B; try lia.
    + congruence || (injection A as <-; injection B as <-; lia).
    + injection A as <-. rewrite Forall_forall in D1. apply D1. eapply nth_error_In; eauto.
    + eapply (IH D2 i j); eauto. lia.
  - induction l as [|x l IH]; intro D; cbn; auto. split.
    + apply Forall_forall. intros y I. apply In_nth_error in I. destruct I as [j I]. apply (D 0 (S j) x y); auto. lia.
    + apply IH. intros i j a b L A B. apply (D (S i) (S j)); auto. lia.
Qed.
(** binary search: everything before the returned index is at least, everything from it on at most the score *)
Definition cut (l : list ptree) (s : Z) (i : nat) : Prop :=
  i <= List.length l /\ (forall t, In t (firstn i l) -> (s <= t_score t)%Z) /\ (forall t, In t (skipn i l) -> (t_score t <= s)%Z).
Lemma firstn_nth A (l : list A) i x : In x (firstn i l) -> exists j, j < i /\ nth_error l j = Some x.
Proof.
  intro I. apply In_nth_error in I. destruct I as [j I]. exists j.
  assert (j < i). { assert (j < List.length (firstn i l)) by (apply nth_error_Some; congruence). rewrite firstn_length in H. lia. }
  split; auto. rewrite <- (firstn_skipn i l). rewrite nth_error_app1; auto. apply nth_error_Some. congruence.
Qed.
Lemma skipn_nth A (l : list A) i x : In x (skipn i l) -> exists j, i <= j /\ nth_error l j = Some x.
Proof.
  revert l. induction i as [|i IH]; intros l I; cbn in I.
  - apply In_nth_error in I. destruct I as [j I]. exists j. split; auto. lia.
  - destruct l as [|y l]; [destruct I|]. destruct (IH _ I) as (j & L & E). exists (S j). split; [lia|auto].
Qed.
Lemma find_loop_ok l s : descending l -> forall fuel lo hi, hi - lo < fuel -> lo <= hi <= List.length l ->
  (forall t, In t (firstn lo l) -> (s <= t_score t)%Z) -> (forall t, In t (skipn hi l) -> (t_score t <= s)%Z) ->
  cut l s (find_loop fuel l s lo hi).
Proof.
  intro D. induction fuel as [|fuel IH]; intros lo hi F B H1 H2; [lia|]. cbn [find_loop].
  destruct (Nat.ltb_spec lo hi) as [L|L]; [|replace hi with lo in * by lia; split; auto; lia].
  assert (M : lo <= (lo + hi) / 2 < hi).
  { split; [apply Nat.div_le_lower_bound; lia|apply Nat.div_lt_upper_bound; lia]. }
  set (mid := (lo + hi) / 2) in *. clearbody mid.
  destruct (nth_error l mid) as [t|] eqn:E; [|apply nth_error_None in E; lia].
  assert (Before : forall u, In u (firstn mid l) -> (t_score t <= t_score u)%Z).
  { intros u I. apply firstn_nth in I. destruct I as (j & Lj & Ej). eapply (D j mid); eauto. lia. }
  assert (After : forall u, In u (skipn mid l) -> (t_score u <= t_score t)%Z).
  { intros u I. apply skipn_nth in I. destruct I as (j & Lj & Ej). eapply (D mid j); eauto. }
  destruct (Z.eqb_spec s (t_score t)) as [->|N].
  - split; [lia|]. split; auto.
  - destruct (Z.ltb_spec (t_score t) s) as [Q|Q].
    + apply IH; auto; [lia|lia|]. intros u I. specialize (After u I). lia.
    + apply IH; auto; [lia|lia|]. intros u I. apply firstn_nth in I. destruct I as (j & Lj & Ej).
      assert (t_score t <= t_score u)%Z by (eapply (D j mid); eauto; lia). lia.
Qed.
Lemma find_cut l s : descending l -> cut l s (cell_find l s).
Proof.
  intro D. unfold cell_find. apply find_loop_ok; auto; [lia|lia|intros t []|].
  rewrite skipn_all. intros t [].
Qed.
(** dictionary *)
Lemma dget_filter k j m : dget k (filter (fun p => negb (Nat.eqb (fst p) j)) m) = if Nat.eqb j k then None else dget k m.
Proof.
  unfold dget. induction m as [|[a t] m IH]; cbn; [destruct (Nat.eqb j k); auto|].
  destruct (Nat.eqb_spec a j) as [->|N]; cbn.
  - destruct (Nat.eqb_spec j k); cbn; [|exact IH]. rewrite IH. now destruct (Nat.eqb_spec j k).
  - destruct (Nat.eqb_spec a k) as [->|N2]; [destruct (Nat.eqb_spec j k); congruence|]. exact IH.
Qed.
Lemma dget_dset k j t m : dget k (dset j t m) = if Nat.eqb j k then Some t else dget k m.
Proof.
  unfold dset, dget. cbn. destruct (Nat.eqb_spec j k); auto. fold (dget k (filter (fun p => negb (Nat.eqb (fst p) j)) m)).
  rewrite dget_filter. now destruct (Nat.eqb_spec j k).
Qed.
Definition cats (l : list ptree) : list nat := map t_cat l.
Lemma index_nodup_unique l t u : NoDup (cats l) -> In t l -> In u l -> t_cat t = t_cat u -> t = u.
Proof.
  induction l as [|x l IH]; cbn; [tauto|]. intros N I J E. inversion N as [|? ? N1 N2]; subst. unfold cats in N1.
  destruct I as [<-|I], J as [<-|J]; auto; exfalso; apply N1; [rewrite E|rewrite <- E]; now apply in_map.
Qed.
Lemma del_all_ok ts : forall m l, index_exact m (l ++ ts) -> NoDup (cats (l ++ ts)) -> exists m', del_all ts m = Ok m' /\ index_exact m' l.
Proof.
  induction ts as [|t ts IH]; intros m l X N; cbn [del_all]; [exists m; rewrite app_nil_r in X; auto|].
  unfold ddel. assert (G : dget (t_cat t) m = Some t) by (apply X; split; auto; apply in_app_iff; cbn; auto). rewrite G. cbn [bind].
  apply IH.
  - intros k u. rewrite dget_filter. unfold cats in N. rewrite map_app in N. cbn in N. apply NoDup_remove in N. destruct N as [N1 N2]. rewrite <- map_app in N2.
    split.
    + destruct (Nat.eqb_spec (t_cat t) k) as [|Nk]; [discriminate|]. intro H. apply X in H. destruct H as [I E]. split; auto.
      apply in_app_iff. apply in_app_iff in I. destruct I as [|[<-|]]; auto. congruence.
    + intros [I E]. destruct (Nat.eqb_spec (t_cat t) k) as [Ek|Nk].
      * exfalso. apply N2. rewrite Ek, <- E. now apply in_map.
      * apply X. split; auto. apply in_app_iff. apply in_app_iff in I. cbn. tauto.
  - unfold cats in *. rewrite map_app in *. cbn in N. eapply NoDup_remove_1; eauto.
Qed.

(** ** removing the old tree *)
Lemma forward_spec l old : match del_forward l old with
  | Some r => exists a b, l = a ++ old :: b /\ r = a ++ b
  | None => forall i, nth_error l i = Some old -> exists j u, j < i /\ nth_error l j = Some u /\ t_score u <> t_score old
  end.
Proof.
  induction l as [|t l IH]; cbn [del_forward]; [intros i; destruct i; discriminate|].
  destruct (same_tree t old) eqn:ST; [apply same_tree_iff in ST; subst; exists [], l; auto|].
  destruct (Z.eqb_spec (t_score t) (t_score old)) as [E|E].
  - destruct (del_forward l old) as [r|].
    + destruct IH as (a & b & -> & ->). exists (t :: a), b. auto.
    + intros [|i] H; cbn in H; [injection H as ->; rewrite same_refl in ST; discriminate|].
      destruct (IH i H) as (j & u & L & Eu & Ne). exists (S j), u. split; [lia|auto].
  - intros [|i] H; cbn in H; [congruence|]. exists 0, t. split; [lia|auto].
Qed.
Lemma backward_spec l old : In old l -> exists a b, l = a ++ old :: b /\ del_backward l old = a ++ b.
Proof.
  induction l as [|t l IH]; [intros []|]. intros I. cbn [del_backward]. destruct (same_tree t old) eqn:ST.
  - apply same_tree_iff in ST. subst. exists [], l. auto.
  - destruct I as [->|I]; [rewrite same_refl in ST; discriminate|].
    destruct (IH I) as (a & b & -> & ->). exists (t :: a), b. auto.
Qed.
Lemma remove_old_ok l old : descending l -> In old l -> exists a b, l = a ++ old :: b /\ remove_old l old = a ++ b.
Proof.
  intros D I. unfold remove_old. pose proof (find_cut (t_score old) D) as (L & C1 & C2). set (i := cell_find l (t_score old)) in *. clearbody i.
  pose proof (forward_spec (skipn i l) old) as F. destruct (del_forward (skipn i l) old) as [r|].
  - destruct F as (a & b & E & ->). exists (firstn i l ++ a), b. rewrite <- !app_assoc, <- E, firstn_skipn. auto.
  - rewrite <- (firstn_skipn i l) in I. apply in_app_iff in I. destruct I as [I|I].
    + assert (J : In old (rev (firstn i l))) by now apply -> in_rev. destruct (backward_spec J) as (a & b & E & ->).
      exists (rev b), (rev a ++ skipn i l). split; [|now rewrite rev_app_distr, <- app_assoc].
      apply (f_equal (@rev _)) in E. rewrite rev_involutive, rev_app_distr in E. cbn in E. rewrite <- app_assoc in E. cbn in E.
      rewrite <- (firstn_skipn i l) at 1. rewrite E, <- app_assoc. reflexivity.
    + exfalso. apply In_nth_error in I. destruct I as [k Ek]. destruct (F k Ek) as (j & u & Lj & Eu & Ne).
      assert (t_score u <= t_score old)%Z by (apply C2; eapply nth_error_In; eauto).
      assert (Ds : descending (skipn i l)). { apply desc_descending. rewrite <- (firstn_skipn i l) in D. apply desc_descending in D. apply desc_app in D. tauto. }
      assert (t_score old <= t_score u)%Z by (eapply (Ds j k); eauto; lia). lia.
Qed.

(** ** counting the trees that reach a score *)
Definition cnt (x : Z) (l : list ptree) : nat := List.length (filter (fun t => (x <=? t_score t)%Z) l).
Lemma cnt_app x a b : cnt x (a ++ b) = cnt x a + cnt x b.
Proof. unfold cnt. now rewrite filter_app, app_length. Qed.
Lemma cnt_cons x t l : cnt x (t :: l) = (if (x <=? t_score t)%Z then 1 else 0) + cnt x l.
Proof. unfold cnt. cbn. now destruct (x <=? t_score t)%Z. Qed.
Lemma cnt_le x l : cnt x l <= List.length l.
Proof. unfold cnt. induction l as [|t l IH]; cbn; auto. destruct (x <=? t_score t)%Z; cbn; lia. Qed.
Lemma cnt_all x l : (forall t, In t l -> (x <= t_score t)%Z) -> cnt x l = List.length l.
Proof. intro H. induction l as [|t l IH]; auto. rewrite cnt_cons, IH by (intros; apply H; cbn; auto). destruct (Z.leb_spec x (t_score t)); auto. specialize (H t (or_introl eq_refl)). lia. Qed.
Lemma cnt_none x l : (forall t, In t l -> (t_score t < x)%Z) -> cnt x l = 0.
Proof. intro H. induction l as [|t l IH]; auto. rewrite cnt_cons, IH by (intros; apply H; cbn; auto). destruct (Z.leb_spec x (t_score t)); auto. specialize (H t (or_introl eq_refl)). lia. Qed.
Lemma nth_split_at A (l : list A) i x : nth_error l i = Some x -> l = firstn i l ++ x :: skipn (S i) l /\ List.length (firstn i l) = i.
Proof.
  revert l. induction i as [|i IH]; intros [|y l] H; cbn in H; try discriminate.
  - injection H as ->. auto.
  - destruct (IH _ H) as [E L]. cbn [firstn app skipn List.length]. split; [f_equal; exact E|now rewrite L].
Qed.
Lemma cnt_nth x l i u : desc l -> nth_error l i = Some u -> (x <= t_score u)%Z -> S i <= cnt x l.
Proof.
  intros D E H. destruct (nth_split_at E) as [Q L]. rewrite Q, cnt_app, cnt_cons. rewrite cnt_all, L.
  - destruct (Z.leb_spec x (t_score u)); lia.
  - intros t I. rewrite Q in D. apply desc_app in D. destruct D as (_ & _ & D). specialize (D t u I (or_introl eq_refl)). lia.
Qed.
Lemma nth_cnt x l i u : desc l -> nth_error l i = Some u -> S i <= cnt x l -> (x <= t_score u)%Z.
Proof.
  intros D E H. destruct (Z.le_gt_cases x (t_score u)) as [|N]; auto. exfalso.
  destruct (nth_split_at E) as [Q L]. rewrite Q, cnt_app in H. rewrite (@cnt_none x (u :: _)) in H.
  - pose proof (cnt_le x (firstn i l)). lia.
  - intros t [<-|I]; auto. rewrite Q in D. apply desc_app in D. destruct D as (_ & [D _] & _). rewrite Forall_forall in D. specialize (D t I). lia.
Qed.

(** ** the invariant *)
Record inv (b : nat) (c : cell) : Prop := {
  i_beam : c_beam c = b; i_desc : desc (c_trees c); i_nodup : NoDup (cats (c_trees c));
  i_index : index_exact (c_map c) (c_trees c); i_within : within_beam b (c_trees c); i_min : threshold b (c_trees c) (c_min c) }.
Lemma kept_min b c u x : inv b c -> c_min c = Some x -> In u (c_trees c) -> (x <= t_score u)%Z.
Proof.
  intros [_ D _ _ W T] E I. unfold threshold in T. rewrite E in T. destruct (nth_error (c_trees c) (b - 1)) as [v|] eqn:Ev; [|discriminate]. injection T as ->.
  apply In_nth_error in I. destruct I as [j Ej]. destruct (Nat.le_gt_cases b j) as [L|L].
  - destruct (W j u L Ej) as (w & Ew & ->). rewrite Ev in Ew. injection Ew as ->. lia.
  - apply desc_descending in D. eapply (D j (b - 1)); eauto. lia.
Qed.
Lemma within_remove b l1 l2 o : 1 <= b -> within_beam b (l1 ++ o :: l2) -> within_beam b (l1 ++ l2).
Proof.
  intros Hb W i t L E.
  assert (Q : forall k, nth_error (l1 ++ l2) k = nth_error (l1 ++ o :: l2) (if Nat.ltb k (List.length l1) then k else S k)).
  { intro k. destruct (Nat.ltb_spec k (List.length l1)).
    - now rewrite !nth_error_app1.
    - rewrite !nth_error_app2 by lia. replace (S k - List.length l1) with (S (k - List.length l1)) by lia. reflexivity. }
  rewrite Q in E. destruct (W (if Nat.ltb i (List.length l1) then i else S i) t) as (u & Eu & Su); auto; [destruct (Nat.ltb_spec i (List.length l1)); lia|].
  destruct (nth_error (l1 ++ l2) (b - 1)) as [v|] eqn:Ev.
  - exists v. split; auto. rewrite Q in Ev. destruct (Nat.ltb_spec (b - 1) (List.length l1)); [congruence|].
    destruct (W (S (b - 1)) v) as (w & Ew & Sw); auto; [lia|]. congruence.
  - exfalso. apply nth_error_None in Ev. rewrite app_length in Ev. assert (LL : nth_error (l1 ++ l2) i <> None) by (rewrite Q, E; discriminate). apply nth_error_Some in LL. rewrite app_length in LL. lia.
Qed.
Lemma cats_app a b : cats (a ++ b) = cats a ++ cats b. Proof. apply map_app. Qed.
(** inserting a tree of a new category *)
Lemma insert_ok b c t : 1 <= b -> c_beam c = b -> desc (c_trees c) -> NoDup (cats (c_trees c)) -> ~ In (t_cat t) (cats (c_trees c)) ->
  (forall k u, k <> t_cat t -> (dget k (c_map c) = Some u <-> In u (c_trees c) /\ t_cat u = k)) ->
  within_beam b (c_trees c) -> (S (List.length (c_trees c)) < b -> c_min c = None) ->
  (forall k u, b - 1 <= k -> nth_error (c_trees c) k = Some u -> (t_score u <= t_score t)%Z) ->
  exists c' n, insert_tree c t = Ok (c', n) /\ inv b c' /\
    (forall u, In u (c_trees c') -> u = t \/ In u (c_trees c)) /\
    (forall u, u = t \/ In u (c_trees c) -> In u (c_trees c') \/ exists x, c_min c' = Some x /\ (t_score u < x)%Z) /\
    (forall x, b <= cnt x (t :: c_trees c) -> exists y, c_min c' = Some y /\ (x <= y)%Z).
Proof.
  intros Hb Eb D N Nt M W Hm Hl. unfold insert_tree. rewrite Eb. set (l := c_trees c) in *.
  pose proof (find_cut (t_score t) (proj1 (desc_descending l) D)) as (Li & C1 & C2). set (i := cell_find l (t_score t)) in *. clearbody i.
  set (l' := firstn i l ++ t :: skipn i l).
  assert (In' : forall u, In u l' <-> u = t \/ In u l).
  { intro u. unfold l'. rewrite <- (firstn_skipn i l) at 3. rewrite !in_app_iff. cbn. intuition. }
  assert (D' : desc l').
  { unfold l'. rewrite <- (firstn_skipn i l) in D. apply desc_app in D. destruct D as (D1 & D2 & D3). apply desc_app. split; auto. split.
    - cbn. split; auto. apply Forall_forall. auto.
    - intros a d Ia [<-|Id]; auto. }
  assert (N' : NoDup (cats l')).
  { unfold l'. rewrite cats_app. cbn. apply NoDup_Add with (a := t_cat t) (l := cats (firstn i l) ++ cats (skipn i l)); [apply Add_app|].
    rewrite <- cats_app, firstn_skipn. auto. }
  assert (X' : index_exact (dset (t_cat t) t (c_map c)) l').
  { intros k u. rewrite dget_dset. destruct (Nat.eqb_spec (t_cat t) k) as [<-|Nk].
    - split; [intros [= ->]; split; auto; apply In'; auto|]. intros [I E]. apply In' in I. destruct I as [->|I]; auto.
      exfalso. apply Nt. rewrite <- E. now apply in_map.
    - rewrite M by auto. rewrite In'. split; [tauto|]. intros [[->|I] E]; auto. congruence. }
  assert (Len : List.length l' = S (List.length l)).
  { unfold l'. rewrite app_length. cbn. rewrite firstn_length, skipn_length. lia. }
  assert (Cnt : forall x, cnt x l' = cnt x (t :: l)).
  { intro x. unfold l'. rewrite cnt_app, !cnt_cons. rewrite <- (firstn_skipn i l) at 3. rewrite cnt_app. lia. }
  assert (PI : py_index l' (Z.of_nat b - 1) = match nth_error l' (b - 1) with Some u => Ok u | None => Err IndexError end).
  { unfold py_index. replace (Z.of_nat b - 1)%Z with (Z.of_nat (b - 1)) by lia. destruct (Z.ltb_spec (Z.of_nat (b - 1)) 0); [lia|].
    destruct (Z.leb_spec 0 (Z.of_nat (b - 1))); [|lia]. destruct (Z.ltb_spec (Z.of_nat (b - 1)) (Z.of_nat (List.length l'))); cbn [andb].
    - now rewrite Nat2Z.id.
    - destruct (nth_error l' (b - 1)) eqn:E; auto. assert (b - 1 < List.length l') by (apply nth_error_Some; congruence). lia. }
  rewrite PI. destruct (nth_error l' (b - 1)) as [tb|] eqn:Etb.
  - assert (CC : forall x, b <= cnt x (t :: l) -> (x <= t_score tb)%Z).
    { intros x H. rewrite <- Cnt in H. eapply nth_cnt; eauto. lia. }
    destruct (nth_error l' b) as [tn|] eqn:Etn.
    + destruct (Z.ltb_spec (t_score tn) (t_score tb)) as [Lt|Ge].
      * assert (Sp : l' = firstn b l' ++ skipn b l') by (symmetry; apply firstn_skipn).
        destruct (@del_all_ok (skipn b l') (dset (t_cat t) t (c_map c)) (firstn b l')) as (m' & Em & Xm); [now rewrite <- Sp|now rewrite <- Sp|].
        rewrite Em. cbn [bind]. do 2 eexists. split; [reflexivity|].
        assert (Lb : List.length (firstn b l') = b). { rewrite firstn_length. assert (b < List.length l') by (apply nth_error_Some; congruence). lia. }
        assert (Eb1 : nth_error (firstn b l') (b - 1) = Some tb). { rewrite Sp in Etb. rewrite nth_error_app1 in Etb by lia. exact Etb. }
        split; [constructor; cbn [c_beam c_trees c_map c_min]; auto|split; [|split]].
        -- rewrite Sp in D'. apply desc_app in D'. tauto.
        -- rewrite Sp, cats_app in N'. clear -N'. induction (cats (firstn b l')) as [|a l0 IH]; [constructor|]. cbn in N'. inversion N'; subst. constructor; auto. intro. apply H1. apply in_app_iff. auto.
        -- intros j u Lj Ej. assert (j < List.length (firstn b l')) by (apply nth_error_Some; congruence). lia.
        -- unfold threshold. now rewrite Eb1.
        -- cbn [c_trees]. intros u I. apply In'. rewrite Sp. apply in_app_iff. auto.
        -- cbn [c_trees c_min]. intros u I. apply In' in I. rewrite Sp in I. apply in_app_iff in I. destruct I as [I|I]; auto. right. exists (t_score tb). split; auto.
           apply skipn_nth in I. destruct I as (j & Lj & Ej). pose proof (proj1 (desc_descending l') D' b j tn u Lj Etn Ej). lia.
        -- cbn [c_min]. intros x H. exists (t_score tb). split; auto.
      * do 2 eexists. split; [reflexivity|]. split; [constructor; cbn [c_beam c_trees c_map c_min]; auto|split; [|split]].
        -- (* within beam: positions from b on tie *)
           intros j u Lj Ej. exists tb. split; auto.
           assert (t_score u <= t_score tb)%Z by (eapply (proj1 (desc_descending l') D' (b - 1) j); eauto; lia).
           assert (Q1 : (t_score tn <= t_score tb)%Z) by (eapply (proj1 (desc_descending l') D' (b - 1) b); eauto; lia).
           assert (Q2 : t_score tn = t_score tb) by lia.
           destruct (Nat.eq_dec j b) as [->|Nj]; [congruence|].
           (* the old list had position j-1 >= b tied with its b-1 position *)
           assert (P : forall k v, i < k -> nth_error l' k = Some v -> nth_error l (k - 1) = Some v).
           { intros k v Lk Ek. unfold l' in Ek. rewrite nth_error_app2 in Ek by (rewrite firstn_length; lia). rewrite firstn_length, Nat.min_l in Ek by lia.
             replace (k - i) with (S (k - 1 - i)) in Ek by lia. cbn in Ek. rewrite <- (firstn_skipn i l). rewrite nth_error_app2 by (rewrite firstn_length; lia).
             now rewrite firstn_length, Nat.min_l by lia. }
           assert (P2 : forall k v, k < i -> nth_error l' k = Some v -> nth_error l k = Some v).
           { intros k v Lk Ek. unfold l' in Ek. rewrite nth_error_app1 in Ek by (rewrite firstn_length; lia). rewrite <- (firstn_skipn i l). rewrite nth_error_app1 by (rewrite firstn_length; lia). exact Ek. }
           assert (P3 : nth_error l' i = Some t). { unfold l'. rewrite nth_error_app2 by (rewrite firstn_length; lia). rewrite firstn_length, Nat.min_l, Nat.sub_diag by lia. reflexivity. }
           destruct (Nat.lt_trichotomy i j) as [Lij|[->|Lij]].
           ++ pose proof (P j u Lij Ej) as Eu. destruct (W (j - 1) u) as (w & Ew & Sw); auto; [lia|]. rewrite Sw.
              (* w = l[b-1] *)
              destruct (Nat.lt_trichotomy i b) as [Lib|[->|Lib]].
              ** pose proof (P b tn Lib Etn) as E1. rewrite E1 in Ew. injection Ew as ->. exact Q2.
              ** assert (E1 : nth_error l (b - 1) = Some tb) by (apply P2; auto; lia). congruence.
              ** assert (E1 : nth_error l (b - 1) = Some tb) by (apply P2; auto; lia). congruence.
           ++ rewrite P3 in Ej. injection Ej as <-. assert (E1 : nth_error l b = Some tn) by (apply P2; auto; lia).
              destruct j as [|j]; [lia|].
              assert (E2 : exists v, nth_error l' j = Some v). { destruct (nth_error l' j) eqn:Q; eauto. apply nth_error_None in Q. assert (S j < List.length l') by (apply nth_error_Some; congruence). lia. }
              destruct E2 as (v & Ev). assert (Ev' : nth_error l j = Some v) by (apply P2; auto).
              destruct (W j v) as (w & Ew & Sw); auto; [lia|]. assert (E3 : nth_error l (b - 1) = Some tb) by (apply P2; auto; lia). rewrite E3 in Ew. injection Ew as <-.
              (* t sits at the end of a tie block or before lower ones: its score is at most tb; and it is at least ... *)
              apply Z.le_antisymm; auto.
              apply (Hl (b - 1) tb); auto.
           ++ assert (E1 : nth_error l j = Some u) by (apply P2; auto). destruct (W j u Lj E1) as (w & Ew & Sw).
              assert (E3 : nth_error l (b - 1) = Some tb) by (apply P2; auto; lia). congruence.
        -- unfold threshold. now rewrite Etb.
        -- cbn [c_trees]. intros u. apply In'.
        -- cbn [c_trees]. intros u I. left. now apply In'.
        -- cbn [c_min]. intros x H. exists (t_score tb). split; auto.
    + do 2 eexists. split; [reflexivity|]. split; [constructor; cbn [c_beam c_trees c_map c_min]; auto|split; [|split]].
      * intros j u Lj Ej. apply nth_error_None in Etn. assert (j < List.length l') by (apply nth_error_Some; congruence). lia.
      * unfold threshold. now rewrite Etb.
      * cbn [c_trees]. intros u. apply In'.
      * cbn [c_trees]. intros u I. left. now apply In'.
      * cbn [c_min]. intros x H. exists (t_score tb). split; auto.
  - apply nth_error_None in Etb. do 2 eexists. split; [reflexivity|]. split; [constructor; cbn [c_beam c_trees c_map c_min]; auto|split; [|split]].
    + intros j u Lj Ej. assert (j < List.length l') by (apply nth_error_Some; congruence). lia.
    + unfold threshold. rewrite (proj2 (nth_error_None l' (b - 1)) Etb). apply Hm. lia.
    + cbn [c_trees]. intros u. apply In'.
    + cbn [c_trees]. intros u I. left. now apply In'.
    + intros x H. exfalso. rewrite <- Cnt in H. pose proof (cnt_le x l'). lia.
Qed.

(** ** one call of add *)
Lemma last_index (l : list ptree) t : py_index (l ++ [t]) (-1) = Ok t.
Proof.
  unfold py_index. cbn [Z.ltb Z.compare]. rewrite app_length. cbn [List.length].
  replace (Z.of_nat (List.length l + 1) + -1)%Z with (Z.of_nat (List.length l)) by lia.
  destruct (Z.leb_spec 0 (Z.of_nat (List.length l))); [|lia]. destruct (Z.ltb_spec (Z.of_nat (List.length l)) (Z.of_nat (List.length l + 1))); [|lia]. cbn [andb].
  rewrite Nat2Z.id, nth_error_app2, Nat.sub_diag by lia. reflexivity.
Qed.
Definition state_ok (b : nat) (off : list ptree) (c : cell) : Prop :=
  inv b c /\ (forall u, In u (c_trees c) -> In u off) /\ accounted off (c_trees c) (c_min c).
Lemma full_last b c l t : 1 <= b -> inv b c -> c_trees c = l ++ [t] -> b <= List.length (c_trees c) -> c_min c = Some (t_score t).
Proof.
  intros Hb I E L. destruct I as [_ D _ _ W T]. unfold threshold in T. destruct (nth_error (c_trees c) (b - 1)) as [u|] eqn:Eu; [|apply nth_error_None in Eu; lia].
  rewrite T. f_equal. assert (El : nth_error (c_trees c) (List.length l) = Some t) by (rewrite E, nth_error_app2, Nat.sub_diag by lia; reflexivity).
  rewrite E, app_length in L. cbn in L. destruct (Nat.eq_dec (List.length l) (b - 1)) as [Q|Q]; [congruence|].
  destruct (W (List.length l) t) as (w & Ew & Sw); auto; [lia|]. congruence.
Qed.
Lemma accounted_mono off off' l m : accounted off l m -> (forall t, In t off' -> In t off) -> accounted off' l m.
Proof. intros A H t I. apply A. auto. Qed.
Lemma insert_step b off c c0 t : 1 <= b -> state_ok b off c ->
  (* [c0] is [c], possibly without a tree [o] of the category of [t] and a lower score *)
  c_beam c0 = c_beam c -> c_map c0 = c_map c -> c_min c0 = c_min c ->
  (c_trees c0 = c_trees c \/ exists l1 o l2, c_trees c = l1 ++ o :: l2 /\ c_trees c0 = l1 ++ l2 /\ t_cat o = t_cat t /\ (t_score o < t_score t)%Z) ->
  ~ In (t_cat t) (cats (c_trees c0)) ->
  (forall k u, b - 1 <= k -> nth_error (c_trees c) k = Some u -> (t_score u <= t_score t)%Z) ->
  exists c' n, insert_tree c0 t = Ok (c', n) /\ state_ok b (t :: off) c'.
Proof.
  intros Hb (I & Sub & Acc) E1 E2 E3 Tr Nt Hl.
  assert (Sub0 : forall u, In u (c_trees c0) -> In u (c_trees c)).
  { destruct Tr as [->|(l1 & o & l2 & -> & -> & _)]; auto. intro u. rewrite !in_app_iff. cbn. tauto. }
  assert (P : desc (c_trees c0) /\ NoDup (cats (c_trees c0)) /\ within_beam b (c_trees c0) /\
    (forall k u, k <> t_cat t -> (dget k (c_map c0) = Some u <-> In u (c_trees c0) /\ t_cat u = k)) /\
    (S (List.length (c_trees c0)) < b -> c_min c0 = None) /\
    (forall k u, b - 1 <= k -> nth_error (c_trees c0) k = Some u -> (t_score u <= t_score t)%Z)).
  { pose proof I as [Bm D N X W T]. destruct Tr as [->|(l1 & o & l2 & Ec & -> & Eo & So)].
    - rewrite E2, E3. split; [exact D|]. split; [exact N|]. split; [exact W|]. split; [intros k u _; apply X|]. split; [|exact Hl]. intro L. rewrite T. rewrite (proj2 (nth_error_None (c_trees c) (b - 1))); auto. lia.
    - rewrite Ec in *. rewrite E2, E3. apply desc_app in D. destruct D as (D1 & [D2 D3] & D4). split; [apply desc_app; split; [exact D1|split; [exact D3|]]; intros; apply D4; cbn; auto|].
      split; [rewrite cats_app in *; cbn in N; eapply NoDup_remove_1; eauto|]. split; [eapply within_remove; eauto|].
      split; [|split].
      + intros k u Nk. rewrite (X k u). rewrite !in_app_iff. cbn. split; [|tauto]. intros [[H|[<-|H]] E]; auto. congruence.
      + intro L. rewrite T. rewrite (proj2 (nth_error_None (l1 ++ o :: l2) (b - 1))); auto. rewrite app_length in *. cbn. lia.
      + intros k u Lk Ek. destruct (Nat.lt_ge_cases k (List.length l1)).
        * apply (Hl k u); auto. rewrite nth_error_app1 in * by lia. exact Ek.
        * apply (Hl (S k) u); [lia|]. rewrite nth_error_app2 in * by lia. replace (S k - List.length l1) with (S (k - List.length l1)) by lia. exact Ek. }
  destruct P as (P1 & P2 & P3 & P4 & P5 & P6).
  destruct (@insert_ok b c0 t) as (c' & n & Ei & Inv' & K1 & K2 & K3); auto; [rewrite E1; apply I|].
  exists c', n. split; auto. split; auto. split.
  - intros u Iu. apply K1 in Iu. destruct Iu as [->|Iu]; cbn; auto.
  - assert (Mono : forall x, c_min c = Some x -> exists y, c_min c' = Some y /\ (x <= y)%Z).
    { intros x Ex. apply K3. pose proof I as [_ D _ _ _ T]. rewrite Ex in T. unfold threshold in T. destruct (nth_error (c_trees c) (b - 1)) as [v|] eqn:Ev; [|discriminate]. injection T as Tx.
      assert (C : S (b - 1) <= cnt x (c_trees c)) by (eapply cnt_nth; eauto; lia). rewrite cnt_cons.
      destruct Tr as [->|(l1 & o & l2 & Ec & -> & Eo & So)]; [lia|]. rewrite Ec, cnt_app, cnt_cons in C. rewrite cnt_app.
      destruct (Z.leb_spec x (t_score o)), (Z.leb_spec x (t_score t)); lia. }
    assert (Kt : forall s, (t_score s <= t_score t)%Z -> t_cat s = t_cat t ->
       (exists u, In u (c_trees c') /\ t_cat u = t_cat s /\ (t_score s <= t_score u)%Z) \/ (exists x, c_min c' = Some x /\ (t_score s < x)%Z)).
    { intros s Ls Es. destruct (K2 t (or_introl eq_refl)) as [Kt|(x & Ex & Lx)]; [left; exists t; auto|right; exists x; split; auto; lia]. }
    intros s [<-|Is]; [apply Kt; auto; lia|].
    destruct (Acc s Is) as [(u & Iu & Eu & Su)|(x & Ex & Lx)].
    + assert (D : In u (c_trees c0) \/ (t_cat u = t_cat t /\ (t_score u < t_score t)%Z)).
      { destruct Tr as [->|(l1 & o & l2 & Ec & -> & Eo & So)]; auto. rewrite Ec in Iu. rewrite in_app_iff in *. cbn in Iu. destruct Iu as [|[<-|]]; auto. }
      destruct D as [D|[D1 D2]].
      * destruct (K2 u (or_intror D)) as [Ku|(x & Ex & Lx)]; [left; exists u; auto|right; exists x; split; auto; lia].
      * apply Kt; [lia|congruence].
    + right. destruct (Mono x Ex) as (y & Ey & Ly). exists y. split; auto. lia.
Qed.
Lemma add_loop_ok b ts : forall off c n, 1 <= b -> state_ok b off c -> desc ts ->
  exists c' n', add_loop ts c n = Ok (c', n') /\ state_ok b (ts ++ off) c'.
Proof.
  induction ts as [|t ts IH]; intros off c n Hb St Ds; cbn [add_loop app]; [eauto|]. destruct Ds as [Dt Ds].
  pose proof St as (I & Sub & Acc).
  assert (Q : exists q, (if Nat.leb (c_beam c) (List.length (c_trees c)) then do l <- py_index (c_trees c) (-1); Ok (t_score t <? t_score l)%Z else Ok false) = Ok q /\
     (q = true -> exists x, c_min c = Some x /\ (t_score t < x)%Z) /\
     (q = false -> forall k u, b - 1 <= k -> nth_error (c_trees c) k = Some u -> (t_score u <= t_score t)%Z)).
  { rewrite (i_beam I). destruct (Nat.leb_spec b (List.length (c_trees c))) as [L|L].
    - assert (Nn : c_trees c <> []) by (intro Q; rewrite Q in L; cbn in L; lia). destruct (exists_last Nn) as (l & x0 & E). rewrite E in L |- *. rewrite last_index. cbn [bind]. eexists. split; [reflexivity|].
      assert (F : c_min c = Some (t_score x0)) by (eapply full_last; eauto; rewrite E; exact L).
      split.
      + intro H. apply Z.ltb_lt in H. eauto.
      + intros H k u Lk Ek. apply Z.ltb_ge in H. assert (t_score u <= t_score x0)%Z; [|lia].
        pose proof I as [_ D _ _ W T]. rewrite E in *. unfold threshold in T. destruct (nth_error (l ++ [x0]) (b - 1)) as [v|] eqn:Ev; [|rewrite T in F; discriminate].
        rewrite T in F. injection F as F. rewrite <- F. apply desc_descending in D. eapply (D (b - 1) k); eauto.
    - eexists. split; [reflexivity|]. split; [discriminate|]. intros _ k u Lk Ek. assert (k < List.length (c_trees c)) by (apply nth_error_Some; congruence). lia. }
  destruct Q as (q & -> & Q1 & Q2). cbn [bind]. destruct q.
  - do 2 eexists. split; [reflexivity|]. split; auto. split; [intros u Iu; cbn; rewrite in_app_iff; auto|].
    + intros s Is. destruct (Q1 eq_refl) as (x & Ex & Lx). change (t :: ts ++ off) with ((t :: ts) ++ off) in Is. apply in_app_iff in Is. destruct Is as [Is|Is]; auto.
      right. exists x. split; auto. destruct Is as [<-|Is]; auto. rewrite Forall_forall in Dt. specialize (Dt s Is). lia.
  - specialize (Q2 eq_refl). destruct (dget (t_cat t) (c_map c)) as [old|] eqn:G.
    + apply (i_index I) in G. destruct G as [Io Eo]. destruct (Z.ltb_spec (t_score old) (t_score t)) as [L|L].
      * destruct (remove_old_ok (proj1 (desc_descending _) (i_desc I)) Io) as (l1 & l2 & E1 & E2).
        destruct (@insert_step b off c (Cell (c_beam c) (remove_old (c_trees c) old) (c_map c) (c_min c)) t) as (c' & m & Ei & S'); cbn [c_beam c_trees c_map c_min]; auto.
        { right. exists l1, old, l2. auto. }
        { rewrite E2. pose proof (i_nodup I) as N. rewrite E1, cats_app in N. cbn in N. apply NoDup_remove in N. rewrite <- cats_app in N. rewrite <- Eo. apply N. }
        rewrite Ei. cbn [bind fst snd]. destruct (IH (t :: off) c' (n + m)%Z Hb S' Ds) as (c2 & n2 & E & S2). do 2 eexists. split; [exact E|].
        destruct S2 as (I2 & Sub2 & Acc2). split; auto. split.
        -- intros u Iu. apply Sub2 in Iu. rewrite in_app_iff in *. cbn in *. rewrite in_app_iff. tauto.
        -- eapply accounted_mono; [exact Acc2|]. intros u Iu. rewrite in_app_iff. cbn in *. rewrite in_app_iff in Iu. tauto.
      * assert (St' : state_ok b (t :: off) c).
        { split; auto. split; [intros; cbn; auto|]. intros s [<-|Is]; auto. left. exists old. auto. }
        destruct (IH (t :: off) c n Hb St' Ds) as (c2 & n2 & E & S2). do 2 eexists. split; [exact E|].
        destruct S2 as (I2 & Sub2 & Acc2). split; auto. split.
        -- intros u Iu. apply Sub2 in Iu. rewrite in_app_iff in *. cbn in *. rewrite in_app_iff. tauto.
        -- eapply accounted_mono; [exact Acc2|]. intros u Iu. rewrite in_app_iff. cbn in *. rewrite in_app_iff in Iu. tauto.
    + destruct (@insert_step b off c c t) as (c' & m & Ei & S'); auto.
      { intro H. apply in_map_iff in H. destruct H as (u & Eu & Iu). assert (dget (t_cat t) (c_map c) = Some u) by (apply (i_index I); auto). congruence. }
      rewrite Ei. cbn [bind fst snd]. destruct (IH (t :: off) c' (n + m)%Z Hb S' Ds) as (c2 & n2 & E & S2). do 2 eexists. split; [exact E|].
      destruct S2 as (I2 & Sub2 & Acc2). split; auto. split.
      -- intros u Iu. apply Sub2 in Iu. rewrite in_app_iff in *. cbn in *. rewrite in_app_iff. tauto.
      -- eapply accounted_mono; [exact Acc2|]. intros u Iu. rewrite in_app_iff. cbn in *. rewrite in_app_iff in Iu. tauto.
Qed.
Lemma insert_desc_ok t l : desc l -> desc (insert_desc t l) /\ (forall u, In u (insert_desc t l) <-> u = t \/ In u l).
Proof.
  induction l as [|x l IH]; cbn [insert_desc desc]; [intros _; split; [split; auto|]; intro u; cbn; intuition|].
  intros [D1 D2]. destruct (IH D2) as [I1 I2]. destruct (Z.ltb_spec (t_score x) (t_score t)).
  - split; [|intro u; cbn; intuition]. cbn. split; auto. constructor; [lia|]. eapply Forall_impl; [|exact D1]. cbn. intros; lia.
  - split; [|intro u; cbn; rewrite I2; intuition]. cbn. split; auto. apply Forall_forall. intros u Iu. apply I2 in Iu. destruct Iu as [->|Iu]; auto. rewrite Forall_forall in D1. auto.
Qed.
Lemma sort_desc_ok l : desc (sort_desc l) /\ forall u, In u (sort_desc l) <-> In u l.
Proof.
  unfold sort_desc. assert (G : forall acc, desc acc -> desc (fold_left (fun acc t => insert_desc t acc) l acc) /\
    forall u, In u (fold_left (fun acc t => insert_desc t acc) l acc) <-> In u l \/ In u acc).
  { induction l as [|t l IH]; intros acc D; cbn [fold_left]; [split; auto; intro; cbn; tauto|].
    destruct (@insert_desc_ok t acc D) as [D' I']. destruct (IH _ D') as [D2 I2]. split; auto. intro u. rewrite I2, I'. cbn. intuition. }
  destruct (G [] I) as [G1 G2]. split; auto. intro u. rewrite G2. cbn. tauto.
Qed.
Lemma cell_add_ok b off c ts : 1 <= b -> state_ok b off c -> exists c' n, cell_add c ts = Ok (c', n) /\ state_ok b (ts ++ off) c'.
Proof.
  intros Hb St. unfold cell_add. destruct (sort_desc_ok ts) as [D I].
  destruct (@add_loop_ok b (sort_desc ts) off c 0%Z Hb St D) as (c' & n & E & (I2 & Sub2 & Acc2)). exists c', n. split; auto. split; auto. split.
  - intros u Iu. apply Sub2 in Iu. rewrite in_app_iff in *. rewrite I in Iu. exact Iu.
  - eapply accounted_mono; [exact Acc2|]. intros u Iu. rewrite in_app_iff in *. rewrite I. exact Iu.
Qed.
Lemma new_cell_ok b : 1 <= b -> state_ok b [] (new_cell b).
Proof.
  intro Hb. split; [constructor; cbn; auto|split; [intros u []|intros u []]].
  - constructor.
  - intros k t. cbn. split; [discriminate|tauto].
  - intros i t _ E. destruct i; discriminate.
  - unfold threshold. cbn. now destruct (b - 1).
Qed.
Lemma cell_run_ok b h : forall off c, 1 <= b -> state_ok b off c -> exists c', cell_run h c = Ok c' /\ state_ok b (List.concat h ++ off) c'.
Proof.
  induction h as [|ts h IH]; intros off c Hb St; cbn [cell_run List.concat app]; [eauto|].
  destruct (cell_add_ok ts Hb St) as (c1 & n & E & S1). rewrite E. cbn [bind fst]. destruct (IH _ _ Hb S1) as (c2 & E2 & (I2 & Sub2 & Acc2)). exists c2. split; auto. split; auto. split.
  - intros u Iu. apply Sub2 in Iu. rewrite !in_app_iff in *. tauto.
  - eapply accounted_mono; [exact Acc2|]. intros u Iu. rewrite !in_app_iff in *. tauto.
Qed.
Lemma below_min b off c t x : 1 <= b -> state_ok b off c -> c_min c = Some x -> (t_score t < x)%Z -> cell_add c [t] = Ok (c, 0%Z).
Proof.
  intros Hb (I & _) Ex L. unfold cell_add. cbn [sort_desc fold_left insert_desc add_loop].
  pose proof (i_min I) as T. unfold threshold in T. rewrite Ex in T. destruct (nth_error (c_trees c) (b - 1)) as [v|] eqn:Ev; [|discriminate].
  assert (Ln : b - 1 < List.length (c_trees c)) by (apply nth_error_Some; congruence).
  rewrite (i_beam I). destruct (Nat.leb_spec b (List.length (c_trees c))); [|lia].
  assert (Nn : c_trees c <> []) by (intro Q; rewrite Q in Ln; cbn in Ln; lia). destruct (exists_last Nn) as (l0 & x0 & E).
  assert (F : c_min c = Some (t_score x0)) by (eapply full_last; eauto).
  rewrite E. rewrite last_index. cbn [bind]. rewrite Ex in F. injection F as ->.
  destruct (Z.ltb_spec (t_score t) (t_score x0)); [reflexivity|lia].
Qed.
Lemma run_summary b h : 1 <= b -> exists c, cell_run h (new_cell b) = Ok c /\
  descending (c_trees c) /\ NoDup (map t_cat (c_trees c)) /\ index_exact (c_map c) (c_trees c) /\ within_beam b (c_trees c) /\
  (forall t, In t (c_trees c) -> In t (List.concat h)) /\
  (forall t s, In t (c_trees c) -> In s (List.concat h) -> t_cat s = t_cat t -> (t_score s <= t_score t)%Z) /\
  (forall s, In s (List.concat h) -> ~ In (t_cat s) (map t_cat (c_trees c)) ->
     exists u, nth_error (c_trees c) (b - 1) = Some u /\ (t_score s < t_score u)%Z) /\
  threshold b (c_trees c) (c_min c).
Proof.
  intro Hb. destruct (@cell_run_ok b h [] (new_cell b) Hb (new_cell_ok Hb)) as (c & E & (I & Sub & Acc)). rewrite app_nil_r in Sub, Acc.
  exists c. split; auto. pose proof I as [_ D N X W T]. split; [now apply desc_descending|]. split; [exact N|]. split; [exact X|]. split; [exact W|].
  split; [exact Sub|]. split; [|split; [|exact T]].
  - intros t s It Is Ec. destruct (Acc s Is) as [(u & Iu & Eu & Su)|(x & Ex & Lx)].
    + assert (u = t) as -> by (eapply index_nodup_unique; eauto; congruence). exact Su.
    + pose proof (kept_min I Ex It). lia.
  - intros s Is Nk. destruct (Acc s Is) as [(u & Iu & Eu & Su)|(x & Ex & Lx)].
    + exfalso. apply Nk. rewrite <- Eu. now apply in_map.
    + unfold threshold in T. rewrite Ex in T. destruct (nth_error (c_trees c) (b - 1)) as [v|]; [|discriminate]. exists v. split; auto. injection T as <-. exact Lx.
Qed.
Lemma run_below_min b h c t x : 1 <= b -> cell_run h (new_cell b) = Ok c -> c_min c = Some x -> (t_score t < x)%Z -> cell_add c [t] = Ok (c, 0%Z).
Proof.
  intros Hb E Ex L. destruct (@cell_run_ok b h [] (new_cell b) Hb (new_cell_ok Hb)) as (c' & E' & St). rewrite E in E'. injection E' as <-. eapply below_min; eauto.
Qed.
