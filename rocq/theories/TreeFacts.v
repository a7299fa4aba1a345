(** Lemmas about pregroup trees and the tree rewriter (C67, C69). *)
From Coq Require Import Ascii Permutation Sorted Lia.
From Verif Require Import PyBase PyFacts TyModel TyFacts TreeModel TreeSpec.
Close Scope string_scope. Set Implicit Arguments. Unset Strict Implicit.

Lemma node_rec (P : node -> Prop) : (forall w i t p cs, Forall P cs -> P (Node w i t p cs)) -> forall n, P n.
Proof. intros H. fix IH 1. intros [w i t p cs]. apply H. induction cs as [|c cs IHc]; constructor; [apply IH | exact IHc]. Qed.

(** ** Stable sorting *)
Definition ind_le (a b : node) : Prop := (n_ind a <= n_ind b)%Z.
Lemma insert_ind_perm n l : Permutation (insert_ind n l) (n :: l).
Proof. induction l as [|m l IH]; cbn; [reflexivity|]. destruct (_ <? _)%Z; [reflexivity|]. rewrite IH. apply perm_swap. Qed.
Lemma insert_ind_sorted n l : StronglySorted ind_le l -> StronglySorted ind_le (insert_ind n l).
Proof.
  induction 1 as [|m l S IH F]; cbn; [repeat constructor|]. destruct (Z.ltb_spec (n_ind n) (n_ind m)).
  - constructor; [constructor; assumption|]. constructor; [unfold ind_le; lia|]. eapply Forall_impl; [|exact F]. unfold ind_le. intros; lia.
  - constructor; [exact IH|]. eapply Permutation_Forall; [symmetry; apply insert_ind_perm|]. constructor; [unfold ind_le; lia | exact F].
Qed.
Lemma insert_ind_filter i n l : StronglySorted ind_le l -> filter (fun m => (n_ind m =? i)%Z) (insert_ind n l) = filter (fun m => (n_ind m =? i)%Z) (l ++ [n]).
Proof.
  induction 1 as [|m l S IH F]; [reflexivity|]. cbn [insert_ind]. destruct (Z.ltb_spec (n_ind n) (n_ind m)) as [L|L]; [|cbn [filter app]; rewrite IH; reflexivity].
  assert (E : forall l, Forall (fun x => (n_ind n < n_ind x)%Z) l -> filter (fun m => (n_ind m =? i)%Z) (n :: l) = filter (fun m => (n_ind m =? i)%Z) (l ++ [n])).
  { clear. intros l. induction 1 as [|x l Hx F IH]; [reflexivity|]. cbn [filter app] in *. rewrite <- IH. destruct (Z.eqb_spec (n_ind n) i); destruct (Z.eqb_spec (n_ind x) i); try reflexivity. lia. }
  apply (E (m :: l)). constructor; [exact L|]. eapply Forall_impl; [|exact F]. unfold ind_le. intros; lia.
Qed.
Lemma sort_acc l : forall acc, StronglySorted ind_le acc -> let r := fold_left (fun acc n => insert_ind n acc) l acc in
  StronglySorted ind_le r /\ Permutation r (acc ++ l) /\ forall i, filter (fun m => (n_ind m =? i)%Z) r = filter (fun m => (n_ind m =? i)%Z) (acc ++ l).
Proof.
  induction l as [|n l IH]; intros acc S; cbn [fold_left]; [rewrite app_nil_r; auto|].
  destruct (IH (insert_ind n acc) (insert_ind_sorted n S)) as (A & B & C). split; [exact A|]. split.
  - rewrite B, insert_ind_perm. cbn. apply Permutation_middle.
  - intros i. rewrite C, filter_app, insert_ind_filter by exact S. rewrite <- filter_app, <- app_assoc. reflexivity.
Qed.
Lemma sort_ind_spec l : StronglySorted ind_le (sort_ind l) /\ Permutation (sort_ind l) l /\ forall i, filter (fun m => (n_ind m =? i)%Z) (sort_ind l) = filter (fun m => (n_ind m =? i)%Z) l.
Proof. apply (sort_acc l). constructor. Qed.
(** a sorted list is determined by its parts of equal index *)
Lemma sorted_unique l : forall l', StronglySorted ind_le l -> StronglySorted ind_le l' -> (forall i, filter (fun m => (n_ind m =? i)%Z) l = filter (fun m => (n_ind m =? i)%Z) l') -> l = l'.
Proof.
  induction l as [|a l IH]; intros [|b l'] S S' H.
  - reflexivity.
  - specialize (H (n_ind b)). cbn in H. rewrite Z.eqb_refl in H. discriminate.
  - specialize (H (n_ind a)). cbn in H. rewrite Z.eqb_refl in H. discriminate.
  - apply StronglySorted_inv in S, S'. destruct S as [S F], S' as [S' F']. rewrite Forall_forall in F, F'.
    assert (E : n_ind a = n_ind b).
    { assert (X := H (n_ind a)). assert (Y := H (n_ind b)). cbn in X, Y. rewrite Z.eqb_refl in X, Y.
      destruct (Z.eqb_spec (n_ind b) (n_ind a)) as [?|N]; [congruence|]. destruct (Z.eqb_spec (n_ind a) (n_ind b)) as [?|_]; [congruence|].
      assert (I1 : In a (filter (fun m => (n_ind m =? n_ind a)%Z) l')) by (rewrite <- X; now left). assert (I2 : In b (filter (fun m => (n_ind m =? n_ind b)%Z) l)) by (rewrite Y; now left).
      apply filter_In in I1, I2. destruct I1 as [I1 _], I2 as [I2 _]. specialize (F b I2). specialize (F' a I1). unfold ind_le in *. lia. }
    assert (X := H (n_ind a)). cbn in X. rewrite Z.eqb_refl, E, Z.eqb_refl in X. injection X as <- X. f_equal. apply IH; auto.
    intros i. specialize (H i). cbn in H. destruct (n_ind a =? i)%Z; [injection H; auto | exact H].
Qed.
(** ** Nodes *)
Lemma subtrees_node w i t p cs : subtrees (Node w i t p cs) = Node w i t p cs :: List.concat (map subtrees cs).
Proof. reflexivity. Qed.
Lemma filter_concat A (f : A -> bool) ls : filter f (List.concat ls) = List.concat (map (filter f) ls).
Proof. induction ls as [|l ls IH]; cbn; [reflexivity|]. now rewrite filter_app, IH. Qed.
Lemma concat_map_ext A B (f g : A -> list B) l : Forall (fun x => f x = g x) l -> List.concat (map f l) = List.concat (map g l).
Proof. induction 1 as [|x l H F IH]; cbn; congruence. Qed.
Lemma nodes_flat_spec n : StronglySorted ind_le (nodes_flat n) /\ forall i, filter (fun m => (n_ind m =? i)%Z) (nodes_flat n) = at_index i n.
Proof.
  induction n as [w i t p cs IH] using node_rec. cbn [nodes_flat]. destruct (sort_ind_spec (Node w i t p cs :: List.concat (map nodes_flat cs))) as (A & _ & C). split; [exact A|].
  intros j. rewrite C. unfold at_index. rewrite subtrees_node. cbn [filter]. rewrite !filter_concat, !map_map.
  assert (E : List.concat (map (fun x => filter (fun m => (n_ind m =? j)%Z) (nodes_flat x)) cs) = List.concat (map (fun x => filter (fun m => (n_ind m =? j)%Z) (subtrees x)) cs)).
  { apply concat_map_ext. eapply Forall_impl; [|exact IH]. intros x [_ H]. exact (H j). }
  rewrite E. reflexivity.
Qed.
Lemma nodes_flat_perm n : Permutation (nodes_flat n) (subtrees n).
Proof.
  induction n as [w i t p cs IH] using node_rec. cbn [nodes_flat]. destruct (sort_ind_spec (Node w i t p cs :: List.concat (map nodes_flat cs))) as (_ & B & _). rewrite B, subtrees_node. constructor.
  clear B. induction IH as [|c cs Hc F IHF]; cbn; [reflexivity|]. now apply Permutation_app.
Qed.
(** *** buckets *)
Lemma append_at_spec A (x : A) i : forall l, i < List.length l -> exists l', append_at i x l = Some l' /\ List.length l' = List.length l /\ forall k, nth k l' [] = if (k =? i)%nat then nth k l [] ++ [x] else nth k l [].
Proof.
  induction i as [|i IH]; intros [|b l] H; cbn in H; try lia.
  - eexists. split; [reflexivity|]. split; [reflexivity|]. intros [|k]; reflexivity.
  - destruct (IH l) as (l' & E & L & N); [lia|]. cbn. rewrite E. cbn. eexists. split; [reflexivity|]. split; [cbn; congruence|]. intros [|k]; [reflexivity|]. cbn [nth]. rewrite N. reflexivity.
Qed.
Lemma put_fold l : forall bs, (forall m, In m l -> (0 <= n_ind m < Z.of_nat (List.length bs))%Z) -> exists bs', foldM put l bs = Ok bs' /\ List.length bs' = List.length bs /\
  forall k, nth k bs' [] = nth k bs [] ++ filter (fun m => (n_ind m =? Z.of_nat k)%Z) l.
Proof.
  induction l as [|n l IH]; intros bs H; cbn [foldM].
  - exists bs. split; [reflexivity|]. split; [reflexivity|]. intros k. now rewrite app_nil_r.
  - assert (Hn := H n (or_introl eq_refl)). unfold put at 1. destruct (Z.ltb_spec (n_ind n) 0); [lia|]. cbv zeta. destruct (Z.ltb_spec (n_ind n) 0); [lia|].
    destruct (@append_at_spec _ n (Z.to_nat (n_ind n)) bs) as (bs1 & E & L & N); [lia|]. rewrite E. cbn [bind]. destruct (IH bs1) as (bs2 & E2 & L2 & N2); [intros m Hm; rewrite L; apply H; now right|].
    exists bs2. split; [exact E2|]. split; [congruence|]. intros k. rewrite N2, N. cbn [filter]. destruct (Nat.eqb_spec k (Z.to_nat (n_ind n))); destruct (Z.eqb_spec (n_ind n) (Z.of_nat k)); try lia.
    + now rewrite <- app_assoc.
    + reflexivity.
Qed.
Lemma last_sorted d l : StronglySorted ind_le l -> forall m, In m l -> (n_ind m <= n_ind (last l d))%Z.
Proof.
  induction 1 as [|a l S IH F]; intros m H; [destruct H|]. destruct l as [|b l].
  - destruct H as [-> | []]. cbn. lia.
  - change (last (a :: b :: l) d) with (last (b :: l) d). destruct H as [-> | H]; [|now apply IH]. inversion F; subst. specialize (IH b (or_introl eq_refl)). unfold ind_le in *. lia.
Qed.
Fixpoint zrange (a : Z) (n : nat) : list Z := match n with O => [] | S n' => a :: zrange (a + 1) n' end.
Lemma zrange_in a n x : In x (zrange a n) <-> (a <= x < a + Z.of_nat n)%Z.
Proof. revert a; induction n as [|n IH]; intros a; cbn [zrange In]; [lia|]. rewrite IH. lia. Qed.
Lemma zrange_sorted a n : StronglySorted Z.lt (zrange a n).
Proof. revert a; induction n as [|n IH]; intros a; constructor; [apply IH|]. apply Forall_forall. intros x Hx. apply zrange_in in Hx. lia. Qed.
Lemma filter_sorted A (R : A -> A -> Prop) f l : StronglySorted R l -> StronglySorted R (filter f l).
Proof. induction 1 as [|x l S IH F]; cbn; [constructor|]. destruct (f x); auto. constructor; auto. rewrite Forall_forall in *. intros y Hy. apply filter_In in Hy. now apply F. Qed.
Lemma buckets_eq (f : Z -> list node) bs : forall a, (forall k, k < List.length bs -> nth k bs [] = f (a + Z.of_nat k)%Z) -> bs = map f (zrange a (List.length bs)).
Proof.
  induction bs as [|b bs IH]; intros a H; cbn [List.length zrange map]; [reflexivity|]. f_equal; [assert (X := H 0); cbn [List.length nth] in X; rewrite X by lia; f_equal; lia|].
  apply IH. intros k Hk. assert (X := H (S k)). cbn [List.length nth] in X. rewrite X by lia. f_equal. lia.
Qed.
Definition nonempty {A} (l : list A) : bool := match l with [] => false | _ => true end.
Lemma filter_map_nonempty A (f : A -> list node) l : filter nonempty (map f l) = map f (filter (fun x => nonempty (f x)) l).
Proof. induction l as [|x l IH]; cbn; [reflexivity|]. destruct (nonempty (f x)); cbn; congruence. Qed.
Theorem get_nodes_ok n : (forall m, In m (subtrees n) -> (0 <= n_ind m)%Z) -> exists is, indices is n /\ get_nodes n = Ok (map (fun i => at_index i n) is).
Proof.
  intros H. destruct (nodes_flat_spec n) as [S At]. assert (P := nodes_flat_perm n). unfold get_nodes. cbv zeta. set (top := n_ind (last (nodes_flat n) n)).
  assert (B : forall m, In m (subtrees n) -> (0 <= n_ind m <= top)%Z) by (intros m Hm; split; [now apply H | apply last_sorted; [exact S|]; eapply Permutation_in; [symmetry; exact P | exact Hm]]).
  assert (T : (0 <= top)%Z) by (specialize (B n); destruct n as [w i t p cs]; specialize (B (or_introl eq_refl)); lia).
  destruct (@put_fold (nodes_flat n) (repeat [] (Z.to_nat (top + 1)))) as (bs & E & L & N).
  { intros m Hm. rewrite repeat_length. apply (Permutation_in _ P) in Hm. specialize (B m Hm). lia. }
  rewrite E. cbn [bind]. rewrite repeat_length in L.
  assert (Eb : bs = map (fun i => at_index i n) (zrange 0 (List.length bs))).
  { apply buckets_eq. intros k Hk. rewrite N. assert (R : forall m j, nth j (repeat (@nil node) m) [] = []) by (induction m; intros [|j]; cbn; auto). rewrite R. cbn [app]. rewrite At. f_equal. }
  exists (filter (fun i => nonempty (at_index i n)) (zrange 0 (List.length bs))). split.
  - split; [apply filter_sorted, zrange_sorted|]. intros i. rewrite filter_In, zrange_in. split.
    + intros [_ Hn]. destruct (at_index i n) as [|m l] eqn:Ea; [discriminate|]. exists m. assert (In m (at_index i n)) by (rewrite Ea; now left). apply filter_In in H0. destruct H0 as [? ?%Z.eqb_eq]. auto.
    + intros (m & Hm & <-). assert (Bm := B m Hm). split; [lia|]. assert (I : In m (at_index (n_ind m) n)) by (apply filter_In; split; [exact Hm | apply Z.eqb_refl]). now destruct (at_index (n_ind m) n).
  - f_equal. rewrite Eb at 1. apply filter_map_nonempty.
Qed.
(** ** Height *)
Lemma list_max_app l m : list_max (l ++ m) = Nat.max (list_max l) (list_max m).
Proof. induction l as [|x l IH]; cbn; [reflexivity|]. fold (list_max (l ++ m)). fold (list_max l). rewrite IH. lia. Qed.
Lemma list_max_cons x l : list_max (x :: l) = Nat.max x (list_max l).
Proof. reflexivity. Qed.
Lemma height_pos n : 1 <= t_height n.
Proof. destruct n. cbn. lia. Qed.
Lemma children_height l : list_max (map t_height (flat_map n_children l)) = list_max (map t_height l) - 1.
Proof.
  induction l as [|[w i t p cs] l IH]; [reflexivity|]. cbn [flat_map n_children map]. rewrite map_app, list_max_app, IH, list_max_cons. cbn [t_height].
  destruct l as [|m l]; [cbn [map]; change (list_max []) with 0; lia|]. cbn [map]. rewrite list_max_cons. assert (X := height_pos m). lia.
Qed.
Lemma levels_ok fuel : forall h l, list_max (map t_height l) <= fuel -> levels fuel h l = h + (list_max (map t_height l) - 1).
Proof.
  induction fuel as [|f IH]; intros h l L; cbn [levels]; [lia|]. destruct l as [|n l]; [cbn; lia|].
  cbv zeta. assert (C := children_height (n :: l)). set (nxt := flat_map n_children (n :: l)) in *. set (mx := list_max (map t_height (n :: l))) in *. rewrite IH by lia. rewrite C.
  destruct nxt as [|m nxt]; [change (list_max (map t_height [])) with 0 in C; lia|].
  assert (1 <= list_max (map t_height (m :: nxt))) by (cbn [map list_max fold_right]; assert (X := height_pos m); lia). lia.
Qed.
Lemma height_size n : t_height n <= size n.
Proof. induction n as [w i t p cs IH] using node_rec. cbn. apply le_n_S. induction IH as [|c cs Hc F IHF]; cbn; [lia|]. fold (list_max (map t_height cs)). fold (list_sum (map size cs)). lia. Qed.
Theorem height_ok n : height n = t_height n.
Proof. unfold height. assert (E : list_max (map t_height [n]) = t_height n) by (cbn; lia). rewrite levels_ok; rewrite E; [assert (X := height_pos n); lia | assert (X := height_size n); lia]. Qed.
