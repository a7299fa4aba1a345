(** Lemmas about pregroup trees: equality, parents, drawing, self cycles, rewriting (C67, C69). *)
From Coq Require Import Ascii Permutation Sorted Lia.
From Verif Require Import PyBase PyFacts TyModel TyFacts TreeModel TreeSpec TreeFacts.
Close Scope string_scope. Set Implicit Arguments. Unset Strict Implicit.

(** ** Parents *)
Lemma with_parent_fst n : forall p, map fst (with_parent p n) = subtrees n.
Proof.
  induction n as [w i t p cs IH] using node_rec. intros q. cbn [with_parent subtrees map fst]. f_equal. rewrite concat_map, map_map. apply concat_map_ext. eapply Forall_impl; [|exact IH]. intros c Hc. apply Hc.
Qed.
Definition par_ind (m : node) : Z := match n_par m with Some p => p | None => (-1)%Z end.
Lemma with_parent_snd n : forall p, linked p n -> with_parent (match p with Some x => x | None => (-1)%Z end) n = map (fun m => (m, par_ind m)) (subtrees n).
Proof.
  induction n as [w i t p cs IH] using node_rec. intros q L. inversion L as [? ? ? ? ? F]; subst. cbn [with_parent subtrees map]. f_equal. rewrite concat_map, map_map.
  apply concat_map_ext. rewrite Forall_forall in *. intros c Hc. exact (IH c Hc (Some i) (F c Hc)).
Qed.
Lemma at_index_parents i n : linked None n -> map par_ind (at_index i n) = map snd (filter (fun mp => (n_ind (fst mp) =? i)%Z) (with_parent (-1) n)).
Proof.
  intros L. assert (E := with_parent_snd L). cbn in E. rewrite E. unfold at_index. generalize (subtrees n). clear. induction l as [|m l IH]; [reflexivity|]. cbn. destruct (n_ind m =? i)%Z; cbn; congruence.
Qed.
(** ** Equality *)
Lemma canon_ind n : n_ind (canon n) = n_ind n.
Proof. now destruct n. Qed.
Lemma insert_ind_map f n l : (forall m, n_ind (f m) = n_ind m) -> map f (insert_ind n l) = insert_ind (f n) (map f l).
Proof. intros H. induction l as [|m l IH]; cbn; [reflexivity|]. rewrite !H. destruct (_ <? _)%Z; cbn; congruence. Qed.
Lemma sort_ind_map f l : (forall m, n_ind (f m) = n_ind m) -> map f (sort_ind l) = sort_ind (map f l).
Proof.
  intros H. unfold sort_ind. change (@nil node) with (map f []) at 2. generalize (@nil node). induction l as [|n l IH]; intros acc; cbn [fold_left map]; [reflexivity|]. rewrite IH, insert_ind_map by exact H. reflexivity.
Qed.
Lemma ty_eqb_true s t : ty_eqb s t = true <-> s = t.
Proof. destruct (ty_eqb_spec s t); split; congruence. Qed.
Lemma opt_eqb_eq a b : opt_eqb a b = true <-> a = b.
Proof. destruct a, b; cbn; try rewrite Z.eqb_eq; split; congruence. Qed.
Lemma list_eqb_canon k l : forall m, (forall a, In a l -> forall b, eq_fuel k a b = true <-> canon a = canon b) -> (list_eqb (eq_fuel k) l m = true <-> map canon l = map canon m).
Proof.
  induction l as [|a l IH]; intros [|b m] H; cbn; try (split; congruence). rewrite andb_true_iff, (H a (or_introl eq_refl) b), IH by (intros; apply H; now right). split; [intros [-> ->]; reflexivity | intros [= -> ->]; auto].
Qed.
Lemma size_in c cs : In c cs -> size c <= list_sum (map size cs).
Proof. induction cs as [|d cs IH]; intros []; cbn; fold (list_sum (map size cs)); [subst; lia | specialize (IH H); lia]. Qed.
Lemma eq_fuel_canon k : forall a, size a <= k -> forall b, eq_fuel k a b = true <-> canon a = canon b.
Proof.
  induction k as [|k IH]; intros [w i t p cs] L [w' i' t' p' cs']; [cbn in L; lia|]. cbn [eq_fuel n_word n_ind n_typ n_par n_children canon].
  rewrite !andb_true_iff, String.eqb_eq, Z.eqb_eq, ty_eqb_true, opt_eqb_eq, list_eqb_canon.
  - rewrite !sort_ind_map by apply canon_ind. split; [intros ((((-> & ->) & ->) & ->) & ->); reflexivity | intros [= -> -> -> -> ->]; auto].
  - intros a Ha. apply IH. destruct (sort_ind_spec cs) as (_ & P & _). apply (Permutation_in _ P) in Ha. apply size_in in Ha. cbn in L. fold (list_sum (map size cs)) in L. lia.
Qed.
Theorem node_eq_canon a b : node_eq a b = true <-> canon a = canon b.
Proof. apply eq_fuel_canon. lia. Qed.
Lemma filter_one i l : NoDup (map n_ind l) -> forall l', Permutation l l' -> filter (fun m => (n_ind m =? i)%Z) l = filter (fun m => (n_ind m =? i)%Z) l'.
Proof.
  intros N l' P. assert (N' : NoDup (map n_ind l')) by (eapply Permutation_NoDup; [apply Permutation_map; exact P | exact N]).
  assert (U : forall l, NoDup (map n_ind l) -> filter (fun m => (n_ind m =? i)%Z) l = [] \/ exists m, filter (fun m => (n_ind m =? i)%Z) l = [m]).
  { clear. induction l as [|m l IH]; intros N; [now left|]. inversion N as [|? ? Ni Nl]; subst. cbn. destruct (Z.eqb_spec (n_ind m) i) as [E|_]; [|now apply IH]. right. exists m. f_equal.
    destruct (filter _ l) as [|x r] eqn:Ef; [reflexivity|]. exfalso. apply Ni. assert (I : In x (filter (fun m => (n_ind m =? i)%Z) l)) by (rewrite Ef; now left). apply filter_In in I. destruct I as [I ?%Z.eqb_eq]. apply in_map_iff. exists x. split; [congruence | exact I]. }
  assert (Q : forall x, In x (filter (fun m => (n_ind m =? i)%Z) l) <-> In x (filter (fun m => (n_ind m =? i)%Z) l')).
  { intros x. rewrite !filter_In. split; intros [I E]; (split; [|exact E]); eapply Permutation_in; [exact P | exact I | symmetry; exact P | exact I]. }
  destruct (U l N) as [E | [m E]]; destruct (U l' N') as [E' | [m' E']]; rewrite E, E' in *; try reflexivity.
  - specialize (Q m'). cbn in Q. tauto.
  - specialize (Q m). cbn in Q. tauto.
  - destruct (proj1 (Q m) (or_introl eq_refl)) as [-> | []]. reflexivity.
Qed.
Theorem node_eq_perm w i t p cs cs' : NoDup (map n_ind cs) -> Permutation cs cs' -> node_eq (Node w i t p cs) (Node w i t p cs') = true.
Proof.
  intros N P. apply node_eq_canon. cbn. f_equal. destruct (sort_ind_spec (map canon cs)) as (A & _ & B). destruct (sort_ind_spec (map canon cs')) as (A' & _ & B'). apply sorted_unique; auto.
  intros j. rewrite B, B'. apply filter_one; [|now apply Permutation_map]. rewrite map_map. erewrite map_ext; [exact N|]. exact canon_ind.
Qed.
(** ** Drawing *)
Definition go_repr := fix go (cs : list node) : list tline := match cs with [] => [] | c :: cs' => add_prefix (match cs' with [] => true | _ => false end) (tree_repr c) ++ go cs' end.
Definition go_path (fl : list bool) := fix go (cs : list node) := match cs with [] => [] | c :: cs' => with_path (fl ++ [match cs' with [] => true | _ => false end]) c ++ go cs' end.
Lemma render_cons l fl : fl <> [] -> render (l :: fl) = (if l then Gap else Through) :: render fl.
Proof. destruct fl; [congruence | reflexivity]. Qed.
Lemma with_path_app n : forall l fl, with_path (l :: fl) n = map (fun '(f, x) => (l :: f, x)) (with_path fl n).
Proof.
  induction n as [w i t p cs IH] using node_rec. intros l fl. cbn [with_path map]. f_equal. induction IH as [|c cs Hc F IHF]; [reflexivity|]. rewrite map_app, <- IHF. f_equal. exact (Hc l _).
Qed.
Lemma with_path_shape n : forall fl, exists x rest, with_path fl n = (fl, x) :: rest /\ Forall (fun q => fst q <> fl) rest /\ (forall q, In q rest -> exists g, fst q = fl ++ g /\ g <> []).
Proof.
  induction n as [w i t p cs IH] using node_rec. intros fl. cbn [with_path]. eexists _, _. split; [reflexivity|].
  assert (X : forall q, In q (go_path fl cs) -> exists g, fst q = fl ++ g /\ g <> []).
  { induction IH as [|c cs Hc F IHF]; cbn [go_path]; [intros q []|]. intros q H. apply in_app_iff in H. destruct H as [H | H]; [|now apply IHF].
    destruct (Hc (fl ++ [match cs with [] => true | _ => false end])) as (x & rest & E & _ & R). rewrite E in H. destruct H as [<- | H]; [eexists; split; [reflexivity | discriminate]|].
    destruct (R q H) as (g & -> & _). rewrite <- app_assoc. eexists. split; [reflexivity | discriminate]. }
  split; [|exact X]. apply Forall_forall. intros q Hq. destruct (X q Hq) as (g & E & N). rewrite E. intros E2. apply N. apply (app_inv_head fl). now rewrite app_nil_r.
Qed.
Theorem tree_repr_ok n : tree_repr n = map (fun '(f, x) => (render f, x)) (with_path [] n).
Proof.
  induction n as [w i t p cs IH] using node_rec. cbn [tree_repr with_path map render]. f_equal. fold go_repr. change (go_repr cs = map (fun '(f, x) => (render f, x)) (go_path [] cs)).
  induction IH as [|c cs Hc F IHF]; cbn [go_repr go_path]; [reflexivity|]. rewrite map_app, <- IHF. f_equal. cbn [app]. set (l := match cs with [] => true | _ => false end). rewrite with_path_app, Hc, map_map.
  destruct (with_path_shape c []) as (x & rest & E & _ & R). rewrite E. cbn [map add_prefix render]. f_equal. rewrite map_map. apply map_ext_in. intros [f y] Hq. destruct (R _ Hq) as (g & Ef & N). cbn in Ef. subst f. now rewrite render_cons by exact N.
Qed.
Lemma render_len fl : List.length (render fl) = List.length fl.
Proof. induction fl as [|l [|b fl] IH]; [reflexivity | reflexivity|]. rewrite render_cons by discriminate. cbn [List.length] in *. congruence. Qed.
Lemma with_path_tokens n : forall fl, map snd (with_path fl n) = map (fun m => (n_word m, n_ind m, n_typ m)) (subtrees n).
Proof.
  induction n as [w i t p cs IH] using node_rec. intros fl. cbn [with_path subtrees map snd n_word n_ind n_typ]. f_equal. induction IH as [|c cs Hc F IHF]; [reflexivity|]. cbn [map List.concat]. rewrite !map_app, <- IHF. f_equal. apply Hc.
Qed.
(** ** Self cycles *)
Lemma filter_map A B (f : B -> bool) (g : A -> B) l : filter f (map g l) = map g (filter (fun x => f (g x)) l).
Proof. induction l as [|x l IH]; cbn; [reflexivity|]. destruct (f (g x)); cbn; congruence. Qed.
Lemma paths_head n : forall q, In q (paths n) -> exists l, q = (n_word n, n_ind n, n_typ n, n_par n) :: l.
Proof. destruct n as [w i t p cs]. cbn. intros q [<- | H]; [eauto|]. apply in_concat in H. destruct H as (l & Hl & Hq). apply in_map_iff in Hl. destruct Hl as (c & <- & _). apply in_map_iff in Hq. destruct Hq as (q' & <- & _). eauto. Qed.
Lemma rsc_head n : n_word (remove_self_cycles n) = n_word n /\ n_ind (remove_self_cycles n) = n_ind n.
Proof. destruct n; auto. Qed.
Theorem remove_self_cycles_ok n : paths (remove_self_cycles n) = filter no_repeat (paths n).
Proof.
  induction n as [w i t p cs IH] using node_rec. cbn [remove_self_cycles paths filter no_repeat]. f_equal. rewrite filter_concat, map_map.
  induction IH as [|c cs Hc F IHF]; cbn [map List.concat]; [reflexivity|]. rewrite map_app, concat_app, IHF. f_equal. rewrite filter_map.
  assert (E : forall q, In q (paths c) -> no_repeat ((w, i, t, p) :: q) = negb ((w =? n_word c)%string && (i =? n_ind c)%Z) && no_repeat q).
  { intros q Hq. destruct (paths_head Hq) as (l & ->). reflexivity. }
  destruct ((w =? n_word c)%string && (i =? n_ind c)%Z).
  - cbn [map List.concat]. rewrite (filter_ext_in _ (fun _ => false)) by (intros q Hq; now rewrite (E q Hq)). clear. induction (paths c); auto.
  - cbn [map List.concat]. rewrite app_nil_r, Hc. f_equal. apply filter_ext_in. intros q Hq. now rewrite (E q Hq).
Qed.
(** ** Merging *)
Lemma erase_set_par p n : erase (set_par p n) = erase n.
Proof. now destruct n. Qed.
Lemma erase_mk w i t p cs : erase (mk w i t p cs) = Node w i t None (map erase cs).
Proof. unfold mk. cbn. rewrite map_map. f_equal. apply map_ext. apply erase_set_par. Qed.
Lemma erase_fields n : n_word (erase n) = n_word n /\ n_ind (erase n) = n_ind n /\ n_typ (erase n) = n_typ n /\ n_children (erase n) = map erase (n_children n).
Proof. destruct n; auto. Qed.
Lemma erase_eta n : erase n = Node (n_word n) (n_ind n) (n_typ n) None (map erase (n_children n)).
Proof. now destruct n. Qed.
(** ** Rewriting *)
Lemma and_compat (A B C D : Prop) : (A <-> C) -> (B <-> D) -> (A /\ B <-> C /\ D).
Proof. tauto. Qed.
Section Rew.
  Variable r : rule.
  Notation edit n := (fst (edit_tree r n)).
  Definition is_match (n : node) : bool := match n_children n with [c] => cond r (n_word n) (n_typ n) && ty_eqb (n_typ c) (n_typ n) | _ => false end.
  Lemma cond_spec n : cond r (n_word n) (n_typ n) = true <-> wanted r n.
  Proof.
    unfold cond, wanted. rewrite andb_true_iff. apply and_compat; [destruct (match_type r); [apply ty_eqb_true | tauto]|].
    destruct (match_words r) as [|v ws]; [tauto|]. rewrite existsb_exists. split; [intros (x & Hx & ->%String.eqb_eq); now right | intros [? | H]; [discriminate | exists (lower (n_word n)); split; [exact H | apply String.eqb_refl]]].
  Qed.
  Lemma is_match_spec n c : n_children n = [c] -> (is_match n = true <-> matching r n c).
  Proof. intros E. unfold is_match, matching. rewrite E, andb_true_iff, ty_eqb_true, cond_spec. intuition congruence. Qed.
  Lemma no_match n : is_match n = false -> forall c, ~ matching r n c.
  Proof. intros E c H. assert (Ec := proj1 H). apply (is_match_spec Ec) in H. congruence. Qed.
  Lemma edit_no n : is_match n = false -> edit_tree r n = (mk (n_word n) (n_ind n) (n_typ n) (n_par n) (map (fun c => edit c) (n_children n)), 0).
  Proof. destruct n as [w i t p cs]. unfold is_match. cbn [n_children n_word n_typ n_ind n_par edit_tree]. destruct cs as [|c [|c' cs]]; auto. intros ->. reflexivity. Qed.
  Lemma edit_yes n c : matching r n c -> edit_tree r n = let '(c', k) := edit_tree r c in
    if match max_depth r with None => true | Some d => (k <? d)%nat end then (mk (joined (r_join r) (n_word n) (n_word c')) (n_ind c') (n_typ c') (n_par c') (n_children c'), S k) else (mk (n_word n) (n_ind n) (n_typ n) (n_par n) [c'], k).
  Proof.
    intros H. assert (Ec := proj1 H). apply (is_match_spec Ec) in H. destruct n as [w i t p cs]. cbn in Ec. subst cs. unfold is_match in H. cbn [n_children n_word n_typ] in H. cbn [edit_tree n_word n_ind n_typ n_par]. rewrite H. reflexivity.
  Qed.
  Definition depth_of (k : nat) : nat := match max_depth r with None => k | Some d => Nat.min k d end.
  Definition built (ms : list node) (b : node) (cs : list node) : node :=
    let k := List.length ms in let d := depth_of k in
    fold_right (fun m acc => Node (n_word m) (n_ind m) (n_typ m) None [acc])
      (fold_right (fun m acc => with_word (joined_word r (n_word m) (n_word acc)) acc) (Node (n_word b) (n_ind b) (n_typ b) None cs) (skipn (k - d) ms)) (firstn (k - d) ms).
  Lemma edit_spec n : exists ms b, spine r n ms b /\ erase (edit n) = built ms b (map (fun c => erase (edit c)) (n_children b)) /\ snd (edit_tree r n) = depth_of (List.length ms) /\ (b = n \/ size b < size n).
  Proof.
    induction n as [w i t p cs IH] using node_rec. set (n := Node w i t p cs). destruct (is_match n) eqn:E.
    - assert (exists c, cs = [c]) as (c & ->) by (unfold is_match in E; cbn in E; destruct cs as [|c [|]]; try discriminate; eauto). inversion IH as [|? ? IHc _]; subst. clear IH.
      assert (M : matching r n c) by (now apply is_match_spec). destruct IHc as (ms & b & Sp & Eb & Ed & Sz). exists (n :: ms), b. split; [econstructor; eassumption|].
      rewrite (edit_yes M). destruct (edit_tree r c) as [c' k] eqn:Ec. cbn [fst snd] in *. assert (Szn : size b < size n) by (unfold n; cbn; destruct Sz as [-> | ?]; lia).
      assert (C : (match max_depth r with None => true | Some d => (k <? d)%nat end = true /\ depth_of (S (List.length ms)) = S (depth_of (List.length ms)) /\ List.length ms - depth_of (List.length ms) = 0) \/
                  (match max_depth r with None => true | Some d => (k <? d)%nat end = false /\ depth_of (S (List.length ms)) = depth_of (List.length ms) /\ depth_of (List.length ms) <= List.length ms)).
      { unfold depth_of in *. destruct (max_depth r) as [d|]; [|left; split; [reflexivity | lia]]. destruct (Nat.ltb_spec k d); [left | right]; (split; [reflexivity | lia]). }
      destruct C as [(C & D & Z0) | (C & D & Z0)]; rewrite C; cbn [fst snd]; (split; [|split; [|right; exact Szn]]).
      + rewrite erase_mk. unfold built in *. cbn [List.length]. rewrite D. replace (S (List.length ms) - S (depth_of (List.length ms))) with 0 by lia. rewrite Z0 in Eb. cbn [firstn skipn fold_right] in *. rewrite <- Eb.
        destruct (erase_fields c') as (-> & _ & _ & _). destruct c'; reflexivity.
      + cbn [List.length]. rewrite D. congruence.
      + rewrite erase_mk. unfold built in *. cbn [List.length]. rewrite D. replace (S (List.length ms) - depth_of (List.length ms)) with (S (List.length ms - depth_of (List.length ms))) by lia. cbn [firstn skipn fold_right map]. now rewrite <- Eb.
      + cbn [List.length]. rewrite D. congruence.
    - exists [], n. split; [constructor; now apply no_match|]. rewrite (edit_no E). cbn [fst snd]. split; [|split; [unfold depth_of; cbn; now destruct (max_depth r) as [[|]|] | now left]].
      rewrite erase_mk, map_map. reflexivity.
  Qed.
  Lemma spine_det n ms b : spine r n ms b -> forall ms' b', spine r n ms' b' -> ms = ms' /\ b = b'.
  Proof.
    induction 1 as [n H | n c ms b M Sp IH]; intros ms' b' Sp'; inversion Sp' as [? H' | ? c' ? ? M' Sp2]; subst.
    - auto.
    - exfalso. exact (H _ M').
    - exfalso. exact (H' _ M).
    - assert (c' = c) by (destruct M as [E _], M' as [E' _]; congruence). subst c'. destruct (IH _ _ Sp2) as [-> ->]. auto.
  Qed.
  Lemma contracted_built n ms b cs : spine r n ms b -> Forall2 (contracted r) (n_children b) cs -> contracted r n (built ms b cs).
  Proof. intros A B. exact (con A B). Qed.
  Lemma size_child b c : In c (n_children b) -> size c < size b.
  Proof. destruct b as [w i t p cs]. cbn. intros H. apply size_in in H. fold (list_sum (map size cs)). lia. Qed.
  Lemma contracted_iff n t : contracted r n t <-> t = erase (edit n).
  Proof.
    assert (G : forall k n, size n <= k -> forall t, contracted r n t <-> t = erase (edit n)).
    { clear n t. induction k as [|k IH]; intros n L t; [destruct n; cbn in L; lia|]. destruct (edit_spec n) as (ms & b & Sp & Eb & _ & Sz). assert (Sb : size b <= size n) by (destruct Sz as [-> | ?]; lia).
      assert (Ch : forall c, In c (n_children b) -> forall t, contracted r c t <-> t = erase (edit c)) by (intros c Hc; apply IH; apply size_child in Hc; lia).
      rewrite Eb. split.
      - intros H. inversion H as [? ms' b' cs Sp' F E1 E2]; subst. destruct (spine_det Sp Sp') as [<- <-]. assert (Ecs : cs = map (fun c => erase (edit c)) (n_children b)).
        { clear -F Ch. induction F as [|c t cs ts H F IH]; [reflexivity|]. cbn. f_equal; [apply (Ch c (or_introl eq_refl)); exact H | apply IH; intros; apply Ch; now right]. }
        rewrite Ecs. reflexivity.
      - intros ->. apply contracted_built; [exact Sp|]. clear -Ch. induction (n_children b) as [|c cs IH]; [constructor|]. constructor; [apply Ch; [now left | reflexivity]|]. apply IH. intros c0 H0. apply Ch. now right. }
    apply (G (size n)). lia.
  Qed.
  Lemma edit_typ n : n_typ (edit n) = n_typ n.
  Proof.
    induction n as [w i t p cs IH] using node_rec. set (n := Node w i t p cs). destruct (is_match n) eqn:E; [|now rewrite (edit_no E)].
    assert (exists c, cs = [c]) as (c & ->) by (unfold is_match in E; cbn in E; destruct cs as [|c [|]]; try discriminate; eauto). inversion IH as [|? ? IHc _]; subst.
    assert (M : matching r n c) by (now apply is_match_spec). rewrite (edit_yes M). destruct (edit_tree r c) as [c' k]. cbn [fst] in *. destruct M as (_ & Et & _). destruct (match max_depth r with None => true | Some d => (k <? d)%nat end); cbn [fst]; [|reflexivity]. change (n_typ c' = n_typ n). congruence.
  Qed.
  (** the nodes of the result *)
  Lemma subtrees_set_par A (f : node -> A) : (forall p n, f (set_par p n) = f n) -> forall p n, map f (subtrees (set_par p n)) = map f (subtrees n).
  Proof. intros H p [w i t q cs]. cbn [set_par subtrees map]. f_equal. exact (H p (Node w i t q cs)). Qed.
  Lemma map_subtrees_mk A (f : node -> A) : (forall p n, f (set_par p n) = f n) -> forall w i t p cs, map f (List.concat (map subtrees (n_children (mk w i t p cs)))) = List.concat (map (fun c => map f (subtrees c)) cs).
  Proof.
    intros H w i t p cs. unfold mk. cbn [n_children]. rewrite map_map, concat_map, map_map. f_equal. apply map_ext. intros c. now apply subtrees_set_par.
  Qed.
  Lemma words_mk w i t p cs : words (mk w i t p cs) = w :: List.concat (map words cs).
  Proof. unfold words. unfold mk at 1. rewrite subtrees_node. cbn [map n_word]. f_equal. refine (@map_subtrees_mk _ n_word _ w i t p cs). now intros ? []. Qed.
  Lemma inds_mk w i t p cs : inds (mk w i t p cs) = i :: List.concat (map inds cs).
  Proof. unfold inds. unfold mk at 1. rewrite subtrees_node. cbn [map n_ind]. f_equal. refine (@map_subtrees_mk _ n_ind _ w i t p cs). now intros ? []. Qed.
  Lemma words_eta n : words n = n_word n :: List.concat (map words (n_children n)).
  Proof. destruct n as [w i t p cs]. unfold words. rewrite subtrees_node. cbn [map n_word n_children]. f_equal. now rewrite concat_map, map_map. Qed.
  Lemma inds_eta n : inds n = n_ind n :: List.concat (map inds (n_children n)).
  Proof. destruct n as [w i t p cs]. unfold inds. rewrite subtrees_node. cbn [map n_ind n_children]. f_equal. now rewrite concat_map, map_map. Qed.
  Lemma edit_rec (P : node -> node -> Prop) :
    (forall n, Forall (fun c => P c (edit c)) (n_children n) -> P n (mk (n_word n) (n_ind n) (n_typ n) (n_par n) (map (fun c => edit c) (n_children n)))) ->
    (forall n c, matching r n c -> P c (edit c) -> let c' := edit c in P n (mk (joined (r_join r) (n_word n) (n_word c')) (n_ind c') (n_typ c') (n_par c') (n_children c'))) -> forall n, P n (edit n).
  Proof.
    intros H1 H2 n. induction n as [w i t p cs IH] using node_rec. set (n := Node w i t p cs). destruct (is_match n) eqn:E; [|rewrite (edit_no E); apply H1; exact IH].
    assert (exists c, cs = [c]) as (c & ->) by (unfold is_match in E; cbn in E; destruct cs as [|c [|]]; try discriminate; eauto). assert (IHc := Forall_inv IH).
    assert (M : matching r n c) by (now apply is_match_spec). rewrite (edit_yes M). destruct (edit_tree r c) as [c' k] eqn:Ec. assert (c' = edit c) by (now rewrite Ec). subst c'. destruct (match max_depth r with None => true | Some d => (k <? d)%nat end); cbn [fst].
    - apply (H2 n c M). exact IHc.
    - exact (H1 n IH).
  Qed.
  Fixpoint tlcat (l : list string) : string := match l with [] => EmptyString | w :: l' => (" " ++ w ++ tlcat l')%string end.
  Lemma sapp_assoc a b c : ((a ++ b) ++ c = a ++ (b ++ c))%string.
  Proof. induction a; cbn; congruence. Qed.
  Lemma tlcat_app l m : tlcat (l ++ m) = (tlcat l ++ tlcat m)%string.
  Proof. induction l as [|w l IH]; cbn; [reflexivity|]. now rewrite IH, sapp_assoc. Qed.
  Lemma concat_tl w l : String.concat " " (w :: l) = (w ++ tlcat l)%string.
  Proof. revert w; induction l as [|v l IH]; intros w; [cbn; induction w; cbn; congruence|]. change (String.concat " " (w :: v :: l)) with (w ++ " " ++ String.concat " " (v :: l))%string. rewrite IH. reflexivity. Qed.
  Lemma edit_words_merge n : r_join r = JMerge -> tlcat (words (edit n)) = tlcat (words n).
  Proof.
    intros J. apply (@edit_rec (fun n n' => tlcat (words n') = tlcat (words n))); clear n.
    - intros n F. rewrite words_mk, words_eta. cbn [tlcat]. do 2 f_equal. rewrite map_map. induction F as [|c cs Hc F IH]; [reflexivity|]. cbn [map List.concat]. rewrite !tlcat_app. congruence.
    - intros n c (Ec & _ & _) Hc c'. rewrite words_mk, J. cbn [joined tlcat]. rewrite (words_eta n), Ec. cbn [map List.concat tlcat]. rewrite app_nil_r, <- Hc, (words_eta (edit c)). cbn [tlcat]. rewrite !sapp_assoc. reflexivity.
  Qed.
  Lemma kept_refl A (P : A -> Prop) l : kept P l l.
  Proof. induction l; constructor; auto. Qed.
  Lemma kept_app A (P : A -> Prop) l l' m m' : kept P l l' -> kept P m m' -> kept P (l ++ m) (l' ++ m').
  Proof. induction 1; cbn; auto; constructor; auto. Qed.
  Lemma kept_concat A (P : A -> Prop) (f g : node -> list A) cs : Forall (fun c => kept P (f c) (g c)) cs -> kept P (List.concat (map f cs)) (List.concat (map g cs)).
  Proof. induction 1; cbn; [constructor | now apply kept_app]. Qed.
  Lemma edit_words_last n : r_join r = JLast -> kept (fun w => match match_words r with [] => True | ws => In (lower w) ws end) (words n) (words (edit n)).
  Proof.
    intros J. apply (@edit_rec (fun n n' => kept _ (words n) (words n'))); clear n.
    - intros n F. rewrite words_mk, words_eta, map_map. constructor. now apply kept_concat.
    - intros n c (Ec & _ & Co) Hc c'. rewrite words_mk, J. cbn [joined]. unfold c'. rewrite (words_eta n), Ec. cbn [map List.concat]. rewrite app_nil_r. constructor.
      + destruct Co as [_ [Co | Co]]; [now rewrite Co|]. destruct (match_words r); [exact I | exact Co].
      + rewrite <- words_eta. exact Hc.
  Qed.
  Lemma edit_words_first n : r_join r = JFirst -> kept (fun _ => True) (words n) (words (edit n)) /\ n_word (edit n) = n_word n.
  Proof.
    intros J. apply (@edit_rec (fun n n' => kept _ (words n) (words n') /\ n_word n' = n_word n)); clear n.
    - intros n F. split; [|reflexivity]. rewrite words_mk, words_eta, map_map. constructor. apply kept_concat. eapply Forall_impl; [|exact F]. intros c Hc. apply Hc.
    - intros n c (Ec & _ & Co) [Hc Hw] c'. rewrite words_mk, J. cbn [joined]. unfold c'. split; [|reflexivity]. rewrite (words_eta n), Ec. cbn [map List.concat]. rewrite app_nil_r. constructor.
      rewrite words_eta in Hc. rewrite (words_eta (edit c)), Hw in Hc. rewrite (words_eta c). apply kept_drop; [exact I|]. inversion Hc; subst; [assumption|].
      assert (X : forall A (x : A) l l', kept (fun _ => True) l (x :: l') -> kept (fun _ => True) l l'). { clear. intros A x l l' H. remember (x :: l') as m. revert x l' Heqm. induction H; intros; subst; [discriminate | injection Heqm as -> ->; apply kept_drop; auto | apply kept_drop; [auto | eapply IHkept; reflexivity]]. }
      eapply X. eassumption.
  Qed.
  Lemma edit_inds n : kept (fun _ => True) (inds n) (inds (edit n)).
  Proof.
    apply (@edit_rec (fun n n' => kept _ (inds n) (inds n'))); clear n.
    - intros n F. rewrite inds_mk, inds_eta, map_map. constructor. now apply kept_concat.
    - intros n c (Ec & _ & Co) Hc c'. rewrite inds_mk. unfold c'. rewrite (inds_eta n), Ec. cbn [map List.concat]. rewrite app_nil_r. constructor; [exact I|]. rewrite <- inds_eta. exact Hc.
  Qed.
  Lemma linked_set_par q p n : linked q n -> linked p (set_par p n).
  Proof. intros H. inversion H; subst. now constructor. Qed.
  Lemma linked_mk w i t p cs : Forall (fun c => exists q, linked q c) cs -> linked p (mk w i t p cs).
  Proof. intros F. constructor. apply Forall_map. eapply Forall_impl; [|exact F]. intros c (q & Hq). exact (linked_set_par _ Hq). Qed.
  Lemma edit_linked n : exists q, linked q (edit n).
  Proof.
    apply (@edit_rec (fun n n' => exists q, linked q n')); clear n.
    - intros n F. eexists. apply linked_mk. apply Forall_map. exact F.
    - intros n c _ (q & Hq) c'. eexists. apply linked_mk. unfold c'. destruct Hq as [p w i t cs F]. cbn [n_children]. eapply Forall_impl; [|exact F]. intros x Hx. eauto.
  Qed.
  Lemma edit_linked_root n : (forall c, ~ matching r n c) -> linked (n_par n) (edit n).
  Proof.
    intros H. assert (E : is_match n = false). { destruct (is_match n) eqn:E; [|reflexivity]. exfalso. assert (exists c, n_children n = [c]) as (c & Ec) by (unfold is_match in E; destruct (n_children n) as [|c [|]]; try discriminate; eauto). apply (H c). now apply is_match_spec. }
    rewrite (edit_no E). apply linked_mk. apply Forall_map. apply Forall_forall. intros c _. apply edit_linked.
  Qed.
End Rew.
Lemma rewrite_words_merge r n : r_join r = JMerge -> String.concat " " (words (rewrite r n)) = String.concat " " (words n).
Proof.
  intros J. assert (E := edit_words_merge n J). unfold rewrite. rewrite (words_eta n), (words_eta (fst (edit_tree r n))) in *. cbn [tlcat] in E. rewrite !concat_tl. cbn in E. injection E as E. exact E.
Qed.
(** ** The groups of nodes *)
Lemma groups_perm is : NoDup is -> forall l : list node, (forall m, In m l -> In (n_ind m) is) -> Permutation (List.concat (map (fun i => filter (fun m => (n_ind m =? i)%Z) l) is)) l.
Proof.
  induction 1 as [|i is Ni Nd IH]; intros l H; cbn [map List.concat].
  - destruct l as [|m l]; [constructor|]. destruct (H m (or_introl eq_refl)).
  - assert (E : map (fun j => filter (fun m => (n_ind m =? j)%Z) l) is = map (fun j => filter (fun m => (n_ind m =? j)%Z) (filter (fun m => negb (n_ind m =? i)%Z) l)) is).
    { apply map_ext_in. intros j Hj. clear -Ni Hj. induction l as [|m l IH]; [reflexivity|]. cbn. destruct (Z.eqb_spec (n_ind m) i) as [Ei|]; cbn; destruct (Z.eqb_spec (n_ind m) j) as [Ej|]; try congruence. }
    rewrite E, IH.
    + clear. induction l as [|m l IH]; [constructor|]. cbn. destruct (n_ind m =? i)%Z; cbn; [now constructor|]. rewrite <- Permutation_middle. now constructor.
    + intros m Hm. apply filter_In in Hm. destruct Hm as [Hm Hn]. destruct (H m Hm) as [Ei | ?]; [|assumption]. rewrite <- Ei, Z.eqb_refl in Hn. discriminate.
Qed.
Lemma indices_nodup is n : indices is n -> NoDup is.
Proof. intros [S _]. induction S as [|x l S IH F]; constructor; auto. rewrite Forall_forall in F. intros I. specialize (F x I). lia. Qed.
Lemma groups_all is n : indices is n -> Permutation (List.concat (map (fun i => at_index i n) is)) (subtrees n).
Proof. intros I. apply groups_perm; [exact (indices_nodup I)|]. intros m Hm. destruct I as [_ I]. apply I. eauto. Qed.
Theorem get_lists_ok n : (forall m, In m (subtrees n) -> (0 <= n_ind m)%Z) -> exists is, indices is n /\ Permutation (List.concat (map (fun i => at_index i n) is)) (subtrees n) /\
  get_nodes n = Ok (map (fun i => at_index i n) is) /\ get_word_indices n = Ok is /\ get_words n = Ok (map (fun i => hd EmptyString (map n_word (at_index i n))) is) /\
  get_types n = Ok (map (fun i => map n_typ (at_index i n)) is) /\
  (linked None n -> get_parents n = Ok (map (fun i => map snd (filter (fun mp => (n_ind (fst mp) =? i)%Z) (with_parent (-1) n))) is)).
Proof.
  intros H. destruct (get_nodes_ok H) as (is & I & E). exists is. split; [exact I|]. split; [now apply groups_all|]. split; [exact E|].
  assert (Ne : forall i, In i is -> exists m l, at_index i n = m :: l /\ n_ind m = i).
  { intros i Hi. destruct I as [_ I]. apply I in Hi. destruct Hi as (m & Hm & Em). destruct (at_index i n) as [|x l] eqn:Ea.
    - exfalso. assert (In m (at_index i n)) by (apply filter_In; split; [exact Hm | now apply Z.eqb_eq]). rewrite Ea in *. easy.
    - exists x, l. split; [reflexivity|]. assert (In x (at_index i n)) as [_ Hx]%filter_In by (rewrite Ea; now left). now apply Z.eqb_eq. }
  unfold get_word_indices, get_words, get_types, get_parents. rewrite E. cbn [rmap bind]. split; [|split; [|split]]; try (f_equal; rewrite map_map).
  - transitivity (map (fun i => i) is); [|apply map_id]. apply map_ext_in. intros i Hi. destruct (Ne i Hi) as (m & l & -> & Em). exact Em.
  - apply map_ext_in. intros i Hi. destruct (Ne i Hi) as (m & l & -> & Em). reflexivity.
  - reflexivity.
  - intros L. unfold rmap, bind. f_equal. apply map_ext. intros i. now rewrite <- (at_index_parents i L).
Qed.
(** ** The [merge] method *)
Theorem merge_ok n :
  (forall c, n_children n = [c] -> n_typ c = n_typ n -> (Z.abs (n_ind n - n_ind c) = 1)%Z ->
     erase (merge n) = Node (if (n_ind n <? n_ind c)%Z then n_word n ++ " " ++ n_word c else n_word c ++ " " ++ n_word n)%string (Z.min (n_ind n) (n_ind c)) (n_typ n) None (map erase (n_children c)) /\
     n_par (merge n) = n_par n /\ ((exists q, linked q n) -> linked (n_par n) (merge n))) /\
  ((forall c, n_children n = [c] -> n_typ c = n_typ n -> (Z.abs (n_ind n - n_ind c) <> 1)%Z) -> merge n = n).
Proof.
  destruct n as [w i t p cs]. cbn [n_children n_ind n_typ n_word n_par]. split.
  - intros c -> <- A. unfold merge. rewrite (proj2 (ty_eqb_true _ _) eq_refl). apply Z.eqb_eq in A. rewrite A. cbn [andb]. split; [now rewrite erase_mk|]. split; [reflexivity|].
    intros (q & L). inversion L as [? ? ? ? ? F]; subst. apply linked_mk. apply Forall_inv in F. destruct c as [w' i' t' p' cs']. inversion F as [? ? ? ? ? F']; subst. cbn. eapply Forall_impl; [|exact F']. eauto.
  - intros H. unfold merge. destruct cs as [|c [|]]; try reflexivity. destruct (ty_eqb t (n_typ c)) eqn:E; [|reflexivity]. apply ty_eqb_true in E. destruct (Z.eqb_spec (Z.abs (i - n_ind c)) 1) as [A|]; [|reflexivity]. exfalso. exact (H c eq_refl (eq_sym E) A).
Qed.
(** ** Rule lists *)
Theorem add_rules_ok new : forall have,
  (exists rs, Forall2 (fun x r => match x with inl r' => r = r' | inr s => available s = Some r end) new rs /\ add_rules have new = (have ++ rs, Ok tt)) \/
  (exists pre s post rs, new = pre ++ inr s :: post /\ available s = None /\ Forall2 (fun x r => match x with inl r' => r = r' | inr s => available s = Some r end) pre rs /\ add_rules have new = (have ++ rs, Err ValueError)).
Proof.
  induction new as [|x new IH]; intros have; [left; exists []; split; [constructor | now rewrite app_nil_r]|].
  assert (G : forall r, (match x with inl r' => r = r' | inr s => available s = Some r end) -> add_rules have (x :: new) = add_rules (have ++ [r]) new).
  { intros r. destruct x as [r'|s]; cbn; [now intros -> | now intros ->]. }
  assert (K : (exists r, match x with inl r' => r = r' | inr s => available s = Some r end) \/ exists s, x = inr s /\ available s = None).
  { destruct x as [r|s]; [left; eauto|]. destruct (available s) eqn:E; [left; eauto | right; eauto]. }
  destruct K as [(r & Hr) | (s & -> & N)].
  - rewrite (G r Hr). destruct (IH (have ++ [r])) as [(rs & F & E) | (pre & s & post & rs & En & N & F & E)]; [left; exists (r :: rs) | right; exists (x :: pre), s, post, (r :: rs)]; rewrite E, <- app_assoc; cbn; repeat split; auto. now rewrite En.
  - right. exists [], s, new, []. repeat split; auto. cbn. now rewrite N, app_nil_r.
Qed.
