(** The permutation list of the DisCoCirc reader (C71, lemmas only). *)
From Coq Require Import Permutation Sorted.
From Verif Require Import PyBase PyFacts TyModel TyFacts DiagModel DiagSpec DiagFacts DiagRot DiagPerm MiscModel MiscFacts TreeModel CircModel CircSpec.
Close Scope string_scope. Set Implicit Arguments. Unset Strict Implicit.

(** ** sorting *)
Lemma insert_nat_perm x l : Permutation (insert_nat x l) (x :: l).
Proof. induction l as [|y l IH]; [constructor; constructor|]. cbn. destruct (x <=? y); [reflexivity|]. rewrite IH. apply perm_swap. Qed.
Lemma sort_nat_perm l : Permutation (sort_nat l) l.
Proof. induction l as [|x l IH]; [constructor|]. cbn. rewrite insert_nat_perm. now constructor. Qed.
Lemma insert_nat_sorted x l : StronglySorted le l -> StronglySorted le (insert_nat x l).
Proof.
  induction 1 as [|y l S IH F]; [repeat constructor|]. cbn. destruct (Nat.leb_spec x y).
  - constructor; [now constructor|]. constructor; [assumption|]. eapply Forall_impl; [|exact F]. intros; cbn in *; lia.
  - constructor; [exact IH|]. apply Forall_forall. intros z Hz. apply (Permutation_in _ (insert_nat_perm x l)) in Hz. destruct Hz as [<- | Hz]; [lia|]. rewrite Forall_forall in F. now apply F.
Qed.
Lemma sort_nat_sorted l : StronglySorted le (sort_nat l).
Proof. induction l; [constructor|]. cbn. now apply insert_nat_sorted. Qed.
Lemma sort_nat_id l : StronglySorted le l -> sort_nat l = l.
Proof.
  induction 1 as [|x l S IH F]; [reflexivity|]. cbn. fold (sort_nat l). rewrite IH. destruct l as [|y l]; [reflexivity|]. cbn. apply Forall_inv in F. now rewrite (proj2 (Nat.leb_le _ _) F).
Qed.

(** ** counting *)
Definition below (w : nat) (l : list nat) : nat := List.length (filter (fun x => x <? w) l).
Lemma filter_len_perm A (f : A -> bool) l m : Permutation l m -> List.length (filter f l) = List.length (filter f m).
Proof. induction 1 as [|x l m P IH|x y l|l m n P IH Q IH2]; cbn; [reflexivity | destruct (f x); cbn; congruence | destruct (f x), (f y); reflexivity | congruence]. Qed.
Lemma occ_app w a b : occurrences w (a ++ b) = occurrences w a + occurrences w b.
Proof. unfold occurrences. now rewrite filter_app, app_length. Qed.
Lemma occ_cons w x l : occurrences w (x :: l) = (if w =? x then 1 else 0) + occurrences w l.
Proof. unfold occurrences. cbn. destruct (w =? x); reflexivity. Qed.
Lemma occ_pos w l : In w l -> 1 <= occurrences w l.
Proof. intros H. unfold occurrences. assert (I : In w (filter (Nat.eqb w) l)) by (apply filter_In; split; [exact H | apply Nat.eqb_refl]). destruct (filter (Nat.eqb w) l); [easy | cbn; lia]. Qed.
Lemma occ_zero w l : ~ In w l -> occurrences w l = 0.
Proof. intros H. unfold occurrences. destruct (filter (Nat.eqb w) l) as [|x f] eqn:E; [reflexivity|]. assert (I : In x (filter (Nat.eqb w) l)) by (rewrite E; now left). apply filter_In in I. destruct I as [I ->%Nat.eqb_eq]. tauto. Qed.
Lemma below_S w l : below (S w) l = below w l + occurrences w l.
Proof. unfold below, occurrences. induction l as [|x l IH]; [reflexivity|]. cbn [filter]. destruct (Nat.ltb_spec x (S w)), (Nat.ltb_spec x w), (Nat.eqb_spec w x); cbn [List.length]; lia. Qed.
Lemma below_all K l : Forall (fun x => x < K) l -> below K l = List.length l.
Proof. unfold below. induction 1 as [|x l H F IH]; [reflexivity|]. cbn [filter]. rewrite (proj2 (Nat.ltb_lt _ _) H). cbn [List.length]. now rewrite IH. Qed.
Lemma below_mono v w l : v <= w -> below v l <= below w l.
Proof. intros H. induction H; [lia|]. rewrite below_S. lia. Qed.

(** ** the lookup table *)
Fixpoint tbl (off : nat) (L : list nat) : list (nat * nat) := match L with [] => [] | x :: L' => d_set Nat.eqb x off (tbl (S off) L') end.
Lemma combine_snoc A B (l : list A) (m : list B) x y : List.length l = List.length m -> combine (l ++ [x]) (m ++ [y]) = combine l m ++ [(x, y)].
Proof. revert m; induction l as [|a l IH]; destruct m as [|b m]; cbn; intros E; try discriminate; [reflexivity|]. rewrite IH by congruence. reflexivity. Qed.
Lemma enum_snoc A (l : list A) x : enum (l ++ [x]) = enum l ++ [(List.length l, x)].
Proof. unfold enum. rewrite app_length. cbn [List.length]. rewrite Nat.add_1_r, seq_S, combine_snoc by apply seq_length. reflexivity. Qed.
Lemma tbl_fold L : forall off N, N = off + List.length L -> fold_left (fun d '(i, w) => d_set Nat.eqb w (N - i - 1) d) (enum (rev L)) [] = tbl off L.
Proof.
  induction L as [|x L IH]; intros off N ->; [reflexivity|]. cbn [rev]. rewrite enum_snoc, fold_left_app, rev_length. cbn [fold_left tbl List.length]. rewrite (IH (S off)) by lia. f_equal. lia.
Qed.
Lemma tbl_get w L : StronglySorted le L -> In w L -> forall off, d_get Nat.eqb w (tbl off L) = Some (off + below w L).
Proof.
  induction 1 as [|x L S IH F]; intros I off; [easy|]. cbn [tbl]. rewrite (d_get_set Nat.eqb_eq). destruct (Nat.eqb_spec x w) as [->|N].
  - f_equal. rewrite Forall_forall in F. unfold below. cbn [filter]. rewrite Nat.ltb_irrefl. enough (E : filter (fun y => y <? w) L = []) by (rewrite E; cbn; lia).
    destruct (filter (fun y => y <? w) L) as [|y f] eqn:E; [reflexivity|]. assert (Hy : In y (filter (fun y => y <? w) L)) by (rewrite E; now left). apply filter_In in Hy. destruct Hy as [Hy ?%Nat.ltb_lt]. specialize (F y Hy). lia.
  - destruct I as [? | I]; [congruence|]. rewrite (IH I). rewrite Forall_forall in F. specialize (F w I). unfold below. cbn [filter]. rewrite (proj2 (Nat.ltb_lt x w)) by lia. cbn [List.length]. f_equal. lia.
Qed.
Lemma lookup0_get w ids : In w ids -> d_get Nat.eqb w (lookup0 ids) = Some (below w ids).
Proof.
  intros I. unfold lookup0. assert (P := sort_nat_perm ids). rewrite (@tbl_fold (sort_nat ids) 0) by (now rewrite (Permutation_length P)). rewrite (tbl_get (sort_nat_sorted ids)) by (eapply Permutation_in; [symmetry; exact P | exact I]).
  f_equal. cbn. unfold below. now apply filter_len_perm.
Qed.

(** ** the permutation *)
Fixpoint ranks (ids pre l : list nat) : list nat := match l with [] => [] | w :: l' => (below w ids + occurrences w pre) :: ranks ids (pre ++ [w]) l' end.
Lemma perm_fold ids l : forall pre d p, (forall w, In w l -> In w ids) -> (forall w, In w ids -> d_get Nat.eqb w d = Some (below w ids + occurrences w pre)) ->
  exists d', foldM perm_next l (d, p) = Ok (d', p ++ ranks ids pre l).
Proof.
  induction l as [|w l IH]; intros pre d p Hl Hd; cbn [foldM ranks]; [exists d; now rewrite app_nil_r|]. cbn [perm_next]. rewrite (Hd w) by (apply Hl; now left). cbn [bind].
  destruct (IH (pre ++ [w]) (d_set Nat.eqb w (below w ids + occurrences w pre + 1) d) (p ++ [below w ids + occurrences w pre])) as (d' & E).
  - intros v Hv. apply Hl. now right.
  - intros v Hv. rewrite (d_get_set Nat.eqb_eq), occ_app, occ_cons. cbn [occurrences filter List.length]. rewrite (Nat.eqb_sym v w). destruct (Nat.eqb_spec w v) as [->|N]; [f_equal; unfold occurrences; cbn; lia|]. rewrite (Hd v Hv). f_equal. unfold occurrences. cbn. lia.
  - exists d'. rewrite E, <- app_assoc. reflexivity.
Qed.
Lemma perm_list_ok ids : perm_list ids = Ok (ranks ids [] ids).
Proof.
  unfold perm_list. destruct (@perm_fold ids ids [] (lookup0 ids) []) as (d & E); [auto | intros w Hw; rewrite (lookup0_get Hw); f_equal; unfold occurrences; cbn; lia |]. rewrite E. reflexivity.
Qed.
Lemma ranks_len ids l : forall pre, List.length (ranks ids pre l) = List.length l.
Proof. induction l; intros; cbn; [reflexivity | now rewrite IHl]. Qed.
Lemma ranks_in ids l x : forall pre, In x (ranks ids pre l) -> exists l1 w l2, l = l1 ++ w :: l2 /\ x = below w ids + occurrences w (pre ++ l1).
Proof.
  induction l as [|v l IH]; intros pre; cbn; [easy|]. intros [<- | H].
  - exists [], v, l. now rewrite app_nil_r.
  - destruct (IH _ H) as (l1 & w & l2 & -> & ->). exists (v :: l1), w, l2. now rewrite <- app_assoc.
Qed.
Lemma ranks_bound ids x : In x (ranks ids [] ids) -> x < List.length ids.
Proof.
  intros H. destruct (ranks_in H) as (l1 & w & l2 & E & ->). cbn [app].
  assert (B : Forall (fun v => v < S (list_max ids)) ids). { apply Forall_forall. intros v Hv. assert (X := proj1 (list_max_le ids (list_max ids)) (le_n _)). rewrite Forall_forall in X. specialize (X v Hv). lia. }
  rewrite <- (below_all B). assert (I : In w ids) by (rewrite E; apply in_or_app; right; now left). rewrite Forall_forall in B. specialize (B w I). assert (M := @below_mono (S w) (S (list_max ids)) ids ltac:(lia)). rewrite below_S in M.
  enough (occurrences w l1 < occurrences w ids) by lia. rewrite E, occ_app, occ_cons, Nat.eqb_refl. lia.
Qed.
Lemma ranks_nodup ids l : forall pre, (exists post, ids = pre ++ l ++ post) -> NoDup (ranks ids pre l).
Proof.
  induction l as [|w l IH]; intros pre (post & E); cbn; constructor.
  - intros H. destruct (ranks_in H) as (l1 & v & l2 & El & Ex). rewrite <- app_assoc in Ex. cbn [app] in Ex. rewrite occ_app, occ_cons in Ex. destruct (Nat.eqb_spec v w) as [->|N]; [lia|].
    assert (Iw : occurrences w pre < occurrences w ids) by (rewrite E, occ_app; cbn [app]; rewrite occ_cons, Nat.eqb_refl; lia).
    assert (Iv : occurrences v pre + (0 + occurrences v l1) < occurrences v ids) by (rewrite E, El, occ_app; cbn [app]; rewrite occ_cons, <- app_assoc, occ_app; cbn [app]; rewrite occ_cons, Nat.eqb_refl; lia).
    destruct (Nat.lt_trichotomy v w) as [L | [L | L]]; [|congruence|].
    + assert (M := @below_mono (S v) w ids ltac:(lia)). rewrite below_S in M. lia.
    + assert (M := @below_mono (S w) v ids ltac:(lia)). rewrite below_S in M. lia.
  - apply IH. exists post. rewrite E, <- app_assoc. reflexivity.
Qed.
Lemma ranks_perm ids : Permutation (ranks ids [] ids) (seq 0 (List.length ids)).
Proof.
  apply NoDup_Permutation_bis; [apply ranks_nodup; exists []; now rewrite app_nil_r | rewrite ranks_len, seq_length; lia|]. intros x Hx. apply in_seq. apply ranks_bound in Hx. lia.
Qed.

(** ** values grouped by wire *)
Definition blocks {X} (f : nat -> list X) (K : nat) : list X := List.concat (map f (seq 0 K)).
Lemma blocks_S X (f : nat -> list X) K : blocks f (S K) = blocks f K ++ f K.
Proof. unfold blocks. rewrite seq_S, map_app, concat_app. cbn. now rewrite app_nil_r. Qed.
Lemma blocks_len X (f : nat -> list X) ids K : (forall w, w < K -> List.length (f w) = occurrences w ids) -> List.length (blocks f K) = below K ids.
Proof.
  induction K as [|K IH]; intros H; [unfold below; cbn; clear H; induction ids as [|? ? IHi]; [reflexivity | exact IHi]|]. rewrite blocks_S, app_length, IH by (intros; apply H; lia). rewrite H by lia. now rewrite below_S.
Qed.
Lemma blocks_nth X (d : X) (f : nat -> list X) ids K w r : (forall w, w < K -> List.length (f w) = occurrences w ids) -> w < K -> r < occurrences w ids -> nth (below w ids + r) (blocks f K) d = nth r (f w) d.
Proof.
  induction K as [|K IH]; intros H L R; [lia|]. rewrite blocks_S. destruct (Nat.eq_dec w K) as [->|N].
  - rewrite app_nth2; rewrite (blocks_len (ids := ids)) by (intros; apply H; lia); [f_equal; lia | lia].
  - assert (M := @below_mono (S w) K ids ltac:(lia)). rewrite below_S in M. rewrite app_nth1 by (rewrite (blocks_len (ids := ids)) by (intros; apply H; lia); lia). apply IH; auto; lia.
Qed.
(** sorting the values [o] by wire *)
Definition picked {X} (ids : list nat) (o : list X) (w : nat) : list X := map snd (filter (fun p => fst p =? w) (combine ids o)).
Lemma picked_len X ids (o : list X) w : List.length o = List.length ids -> List.length (picked ids o w) = occurrences w ids.
Proof.
  unfold picked, occurrences. rewrite map_length. revert o; induction ids as [|v ids IH]; destruct o as [|x o]; cbn; intros E; try discriminate; [reflexivity|]. injection E as E. rewrite (Nat.eqb_sym w v). destruct (v =? w); cbn; now rewrite IH.
Qed.
Lemma picked_app X w pre l (o1 o2 : list X) : List.length o1 = List.length pre -> picked (pre ++ l) (o1 ++ o2) w = picked pre o1 w ++ picked l o2 w.
Proof.
  intros E. unfold picked. rewrite <- map_app, <- filter_app. do 2 f_equal. revert pre E; induction o1 as [|x o1 IH]; destruct pre; cbn; intros E; try discriminate; [reflexivity|]. rewrite IH by congruence. reflexivity.
Qed.
Lemma ranks_blocks X (d : X) ids K (o : list X) : List.length o = List.length ids -> Forall (fun w => w < K) ids -> map (fun k => nth k (blocks (picked ids o) K) d) (ranks ids [] ids) = o.
Proof.
  intros L F. assert (G : forall l pre o1 o2, ids = pre ++ l -> o = o1 ++ o2 -> List.length o1 = List.length pre -> map (fun k => nth k (blocks (picked ids o) K) d) (ranks ids pre l) = o2).
  { induction l as [|w l IH]; intros pre o1 o2 E1 E2 E3; cbn [ranks map].
    - assert (List.length o2 = 0) by (rewrite E1, E2 in L; rewrite !app_length in L; cbn in L; lia). now destruct o2.
    - assert (exists x o2', o2 = x :: o2') as (x & o2' & ->) by (destruct o2; [rewrite E1, E2 in L; rewrite !app_length in L; cbn in L; lia | eauto]).
      f_equal; [|apply (IH (pre ++ [w]) (o1 ++ [x])); [now rewrite <- app_assoc | now rewrite <- app_assoc | rewrite !app_length; cbn; lia]].
      assert (Pl : List.length (picked pre o1 w) = occurrences w pre) by (now apply picked_len).
      rewrite (@blocks_nth X d _ ids) ; [| intros; now apply picked_len | rewrite Forall_forall in F; apply F; rewrite E1; apply in_or_app; right; now left | rewrite E1, occ_app, occ_cons, Nat.eqb_refl; lia].
      rewrite E1, E2 at 1. rewrite picked_app by exact E3. rewrite app_nth2, Pl, Nat.sub_diag by lia. cbn. now rewrite Nat.eqb_refl. }
  exact (G ids [] [] o eq_refl eq_refl eq_refl).
Qed.
