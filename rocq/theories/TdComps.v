(** The components of the words (C68, lemmas only). *)
From Coq Require Import Sorted.
From Verif Require Import PyBase PyFacts TyModel TyFacts DiagModel DiagSpec DiagMisc MiscModel TreeModel TreeSpec TreeFacts TreeRew TdModel TdSpec.
Close Scope string_scope. Set Implicit Arguments. Unset Strict Implicit.

(** ** Python indices *)
Lemma py_pos_nat n k : k < n -> py_pos n (Z.of_nat k) = Ok k.
Proof. intros H. unfold py_pos. destruct (Z.ltb_spec (Z.of_nat k) 0); [lia|]. rewrite (proj2 (Z.leb_le _ _)), (proj2 (Z.ltb_lt _ _)) by lia. cbn [andb]. now rewrite Nat2Z.id. Qed.
Lemma py_set_nat A (l : list A) k x : k < List.length l -> py_set l (Z.of_nat k) x = Ok (set_nth k x l).
Proof. intros H. unfold py_set. now rewrite py_pos_nat. Qed.
Lemma py_index_nth A (l : list A) k d : k < List.length l -> py_index l (Z.of_nat k) = Ok (nth k l d).
Proof.
  intros H. unfold py_index. destruct (Z.ltb_spec (Z.of_nat k) 0); [lia|]. rewrite (proj2 (Z.leb_le _ _)), (proj2 (Z.ltb_lt _ _)) by lia. cbn [andb]. rewrite Nat2Z.id. destruct (nth_error l k) eqn:E; [now rewrite (nth_error_nth _ _ d E)|]. apply nth_error_None in E. lia.
Qed.
Lemma set_nth_len A k (x : A) l : List.length (set_nth k x l) = List.length l.
Proof. revert k. induction l as [|y l IH]; intros [|k]; cbn; auto. Qed.
Lemma set_nth_nth A k j (x d : A) l : k < List.length l -> nth j (set_nth k x l) d = if (j =? k)%nat then x else nth j l d.
Proof. revert k j. induction l as [|y l IH]; intros [|k] [|j] H; cbn in *; try lia; auto. rewrite IH by lia. reflexivity. Qed.

(** ** Inserting a component *)
Lemma side_cases i o : (o = -1)%Z /\ side i o = 1 \/ (o <> -1 /\ o < i)%Z /\ side i o = 0 \/ (o <> -1 /\ i <= o)%Z /\ side i o = 2.
Proof. unfold side. destruct (Z.eqb_spec o (-1)); [auto|]. destruct (Z.ltb_spec o i); [right; left; auto | right; right; auto]. Qed.
Lemma before_trans i x y z : before i x y -> before i y z -> before i x z.
Proof. unfold before. lia. Qed.
Lemma before_total i x y : fst x <> fst y -> before i x y \/ before i y x.
Proof. unfold before. lia. Qed.
Lemma before_irr i x y : before i x y -> before i y x -> False.
Proof. unfold before. lia. Qed.
Lemma split_at i y l : StronglySorted (before i) l -> ~ In (fst y) (map fst l) -> exists l1 l2, l = l1 ++ l2 /\ Forall (fun x => before i x y) l1 /\ Forall (before i y) l2.
Proof.
  induction 1 as [|x l Sd IH F]; intros N; [exists [], []; auto|]. cbn in N. destruct (@before_total i x y) as [B | B]; [intros E; apply N; now left | |].
  - destruct IH as (l1 & l2 & -> & F1 & F2); [tauto|]. exists (x :: l1), l2. auto.
  - exists [], (x :: l). split; [reflexivity|]. split; [constructor|]. constructor; [exact B|]. eapply Forall_impl; [|exact F]. intros z Hz. eapply before_trans; eauto.
Qed.
Lemma sorted_ins i y l1 l2 : StronglySorted (before i) (l1 ++ l2) -> Forall (fun x => before i x y) l1 -> Forall (before i y) l2 -> StronglySorted (before i) (l1 ++ y :: l2).
Proof.
  induction l1 as [|x l1 IH]; cbn [app]; intros Sd F1 F2; [now constructor|]. inversion Sd as [|? ? Sd' F]; subst. inversion F1; subst. constructor; [now apply IH|]. apply Forall_app in F. destruct F as [Fa Fb]. apply Forall_app. split; [exact Fa|]. now constructor.
Qed.
Lemma take_while_app A (f : A -> bool) l1 l2 : Forall (fun x => f x = true) l1 -> Forall (fun x => f x = false) l2 -> take_while f (l1 ++ l2) = l1.
Proof. induction 1 as [|x l1 E _ IH]; cbn; intros F2; [destruct F2 as [|y l2 E]; cbn; [reflexivity | now rewrite E]|]. rewrite E. f_equal. now apply IH. Qed.
Lemma insert_left a b t (nc : list (Z * ty)) : (0 <= b < a)%Z -> StronglySorted (before a) nc -> (forall x, In x nc -> (-1 <= fst x)%Z /\ fst x <> a) -> ~ In b (map fst nc) ->
  exists l1 l2, nc = l1 ++ l2 /\ StronglySorted (before a) (l1 ++ (b, t) :: l2) /\
    List.length nc - List.length (take_while (fun x : wcomp => (a <? fst x)%Z || (fst x <? b)%Z) (rev nc)) = List.length l1.
Proof.
  intros Hb Sd Hk N. destruct (@split_at a (b, t) nc Sd N) as (l1 & l2 & E & F1 & F2). exists l1, l2. split; [exact E|]. subst nc. split; [now apply sorted_ins|].
  rewrite rev_app_distr, take_while_app, rev_length, app_length; [lia| |]; apply Forall_forall; intros x Hx; apply in_rev in Hx; assert (K := Hk x); rewrite in_app_iff in K; specialize (K ltac:(auto)); destruct K as [K1 K2].
  - rewrite Forall_forall in F2. specialize (F2 x Hx). unfold before in F2. cbn [fst] in F2. destruct (side_cases a b) as [?|[?|?]], (side_cases a (fst x)) as [?|[?|?]]; destruct (Z.ltb_spec a (fst x)), (Z.ltb_spec (fst x) b); cbn; auto; lia.
  - rewrite Forall_forall in F1. specialize (F1 x Hx). unfold before in F1. cbn [fst] in F1. destruct (side_cases a b) as [?|[?|?]], (side_cases a (fst x)) as [?|[?|?]]; destruct (Z.ltb_spec a (fst x)), (Z.ltb_spec (fst x) b); cbn; auto; lia.
Qed.
Lemma insert_right a b t (nc : list (Z * ty)) : (0 <= a < b)%Z -> StronglySorted (before a) nc -> (forall x, In x nc -> (-1 <= fst x)%Z /\ fst x <> a) -> ~ In b (map fst nc) ->
  exists l1 l2, nc = l1 ++ l2 /\ StronglySorted (before a) (l1 ++ (b, t) :: l2) /\ List.length (take_while (fun x : wcomp => (fst x <? a)%Z || (b <? fst x)%Z) nc) = List.length l1.
Proof.
  intros Hb Sd Hk N. destruct (@split_at a (b, t) nc Sd N) as (l1 & l2 & E & F1 & F2). exists l1, l2. split; [exact E|]. subst nc. split; [now apply sorted_ins|].
  rewrite take_while_app; [reflexivity| |]; apply Forall_forall; intros x Hx; assert (K := Hk x); rewrite in_app_iff in K; specialize (K ltac:(auto)); destruct K as [K1 K2].
  - rewrite Forall_forall in F1. specialize (F1 x Hx). unfold before in F1. cbn [fst] in F1. destruct (side_cases a b) as [?|[?|?]], (side_cases a (fst x)) as [?|[?|?]]; destruct (Z.ltb_spec (fst x) a), (Z.ltb_spec b (fst x)); cbn; auto; lia.
  - rewrite Forall_forall in F2. specialize (F2 x Hx). unfold before in F2. cbn [fst] in F2. destruct (side_cases a b) as [?|[?|?]], (side_cases a (fst x)) as [?|[?|?]]; destruct (Z.ltb_spec (fst x) a), (Z.ltb_spec b (fst x)); cbn; auto; lia.
Qed.

(** ** One arc after the other *)
Definition arc_links (i : Z) (x : node * node) : list (Z * ty) :=
  let '(p, c) := x in (if (n_ind p =? i)%Z then [(n_ind c, if (n_ind c <? i)%Z then rot 1 (n_typ c) else rot (-1) (n_typ c))] else []) ++ (if (n_ind c =? i)%Z then [(n_ind p, n_typ c)] else []).
Section Steps.
  Variables (root : node) (ntok : nat).
  Definition links_of (A : list (node * node)) (i : Z) : list (Z * ty) := (if (n_ind root =? i)%Z then [((-1)%Z, n_typ root)] else []) ++ List.concat (map (arc_links i) A).
  Definition inv (A : list (node * node)) (wc : wcomps) : Prop := List.length wc = ntok /\ forall i, i < ntok -> Permutation (nth i wc []) (links_of A (Z.of_nat i)) /\ StronglySorted (before (Z.of_nat i)) (nth i wc []).
  Definition known (A : list (node * node)) : list Z := n_ind root :: map (fun x => n_ind (snd x)) A.
  Inductive growth : list Z -> list (node * node) -> Prop :=
  | growth_nil k : growth k []
  | growth_cons k n c ps : In (n_ind n) k -> ~ In (n_ind c) k -> (0 <= n_ind c < Z.of_nat ntok)%Z -> growth (k ++ [n_ind c]) ps -> growth k ((n, c) :: ps).
  (** the arcs so far: their heads are known *)
  Definition heads (A : list (node * node)) : Prop := forall x, In x A -> In (n_ind (fst x)) (known A).
  Lemma links_keys A i x : heads A -> In x (links_of A i) -> fst x = (-1)%Z \/ In (fst x) (known A).
  Proof.
    intros H Hx. unfold links_of in Hx. apply in_app_or in Hx. destruct Hx as [Hx | Hx]; [destruct (_ =? _)%Z; [destruct Hx as [<- | []]; now left | destruct Hx]|].
    apply in_concat in Hx. destruct Hx as (l & Hl & Hx). apply in_map_iff in Hl. destruct Hl as ([p c] & <- & Hpc). right. unfold arc_links in Hx. apply in_app_or in Hx. destruct Hx as [Hx | Hx]; destruct (_ =? _)%Z; cbn in Hx; intuition (subst; cbn [fst]).
    - right. apply in_map_iff. exists (p, c). auto.
    - exact (H _ Hpc).
  Qed.
  Lemma links_new A i : heads A -> ~ In i (known A) -> links_of A i = [].
  Proof.
    intros H N. unfold links_of. destruct (Z.eqb_spec (n_ind root) i) as [E|_]; [exfalso; apply N; now left|]. cbn [app]. assert (G : forall x, In x A -> arc_links i x = []).
    { intros [p c] Hx. unfold arc_links. destruct (Z.eqb_spec (n_ind p) i) as [E|_]; [exfalso; apply N; rewrite <- E; exact (H _ Hx)|]. destruct (Z.eqb_spec (n_ind c) i) as [E|_]; [exfalso; apply N; right; apply in_map_iff; exists (p, c); auto | reflexivity]. }
    clear -G. induction A as [|x A IH]; [reflexivity|]. cbn. rewrite (G x (or_introl eq_refl)). apply IH. intros; apply G; now right.
  Qed.
  Lemma links_snoc A x i : links_of (A ++ [x]) i = links_of A i ++ arc_links i x.
  Proof. unfold links_of. rewrite map_app, concat_app. cbn. now rewrite app_nil_r, app_assoc. Qed.
  Lemma step_ok A wc cups n c : inv A wc -> heads A -> (forall i, In i (known A) -> (0 <= i < Z.of_nat ntok)%Z) -> In (n_ind n) (known A) -> ~ In (n_ind c) (known A) -> (0 <= n_ind c < Z.of_nat ntok)%Z ->
    (forall x, In x A -> n_ind (fst x) <> n_ind (snd x)) -> exists wc', add_child n (wc, cups) c = Ok (wc', cups ++ [(lo (n, c), hi (n, c))]) /\ inv (A ++ [(n, c)]) wc'.
  Proof.
    intros [Lw I] Hh Hk Hn Hc Rc Irr. assert (Rn := Hk _ Hn). assert (Ne : n_ind n <> n_ind c) by (intros E; now rewrite <- E in Hc). set (a := Z.to_nat (n_ind n)). set (b := Z.to_nat (n_ind c)). assert (Ea : n_ind n = Z.of_nat a) by (unfold a; lia). assert (Eb : n_ind c = Z.of_nat b) by (unfold b; lia).
    assert (La : a < ntok) by lia. assert (Lb : b < ntok) by lia. assert (Nab : a <> b) by lia. destruct (I a La) as [Pa Sa]. destruct (I b Lb) as [Pb _]. rewrite (links_new Hh) in Pb by now rewrite <- Eb. apply Permutation_sym, Permutation_nil in Pb.
    assert (Ka : forall x, In x (nth a wc []) -> (-1 <= fst x)%Z /\ fst x <> Z.of_nat a).
    { intros x Hx. apply (Permutation_in _ Pa) in Hx. split; [destruct (links_keys Hh Hx) as [-> | J]; [lia | specialize (Hk _ J); lia]|]. intros E. unfold links_of in Hx. apply in_app_or in Hx. destruct Hx as [Hx | Hx]; [destruct (_ =? _)%Z; [destruct Hx as [<- | []]; cbn in E; lia | destruct Hx]|].
      apply in_concat in Hx. destruct Hx as (l & Hl & Hx). apply in_map_iff in Hl. destruct Hl as ([p q] & <- & Hpq). specialize (Irr _ Hpq). cbn [fst snd] in Irr. unfold arc_links in Hx. apply in_app_or in Hx. destruct Hx as [Hx | Hx]; (destruct (Z.eqb_spec (n_ind p) (Z.of_nat a)), (Z.eqb_spec (n_ind q) (Z.of_nat a)); cbn in Hx; intuition (subst; cbn [fst] in *; congruence)). }
    assert (Nb : ~ In (n_ind c) (map fst (nth a wc []))). { intros J. apply in_map_iff in J. destruct J as (x & E & Hx). apply (Permutation_in _ Pa) in Hx. destruct (links_keys Hh Hx) as [J | J]; [lia | now rewrite E in J]. }
    assert (New : forall l1 l2 t, nth a wc [] = l1 ++ l2 -> t = (if (n_ind c <? n_ind n)%Z then rot 1 (n_typ c) else rot (-1) (n_typ c)) -> StronglySorted (before (n_ind n)) (l1 ++ (n_ind c, t) :: l2) -> inv (A ++ [(n, c)]) (set_nth b [(n_ind n, n_typ c)] (set_nth a (l1 ++ [(n_ind c, t)] ++ l2) wc))).
    { intros l1 l2 t El Et Sl. split; [now rewrite !set_nth_len|]. intros i Li. rewrite links_snoc. rewrite set_nth_nth by (rewrite set_nth_len; lia). destruct (Nat.eqb_spec i b) as [->|Nib].
      - rewrite (links_new Hh) by now rewrite <- Eb. unfold arc_links. rewrite <- Eb. destruct (Z.eqb_spec (n_ind n) (n_ind c)); [congruence|]. rewrite Z.eqb_refl. split; [reflexivity | repeat constructor].
      - rewrite set_nth_nth by lia. destruct (Nat.eqb_spec i a) as [->|Nia].
        + unfold arc_links. rewrite <- Ea. rewrite Z.eqb_refl. destruct (Z.eqb_spec (n_ind c) (n_ind n)); [congruence|]. rewrite <- Et. split; [|exact Sl]. rewrite <- Ea in Pa. rewrite <- Pa, El. cbn [app]. rewrite <- Permutation_middle. apply Permutation_cons_append.
        + assert (E : arc_links (Z.of_nat i) (n, c) = []) by (unfold arc_links; destruct (Z.eqb_spec (n_ind n) (Z.of_nat i)); [lia|]; destruct (Z.eqb_spec (n_ind c) (Z.of_nat i)); [lia|]; reflexivity). rewrite E, app_nil_r. now apply I. }
    unfold add_child. rewrite Ea, (@py_index_nth _ wc a []) by lia. cbn [bind]. rewrite <- Ea. destruct (Z.ltb_spec (n_ind c) (n_ind n)) as [L|L].
    - destruct (@insert_left (n_ind n) (n_ind c) (rot 1 (n_typ c)) (nth a wc [])) as (l1 & l2 & E & Sl & Loc); [lia | now rewrite Ea | now rewrite Ea | exact Nb|]. rewrite Loc. assert (F1 : firstn (List.length l1) (nth a wc []) = l1) by (rewrite E, firstn_app, firstn_all, Nat.sub_diag; cbn [firstn]; apply app_nil_r). assert (F2 : skipn (List.length l1) (nth a wc []) = l2) by (rewrite E, skipn_app, skipn_all, Nat.sub_diag; reflexivity). cbv zeta. rewrite F1, F2.
      rewrite Ea, py_set_nat by lia. cbn [bind]. rewrite Eb, (@py_index_nth _ _ b []) by (rewrite set_nth_len; lia). cbn [bind]. rewrite py_set_nat by (rewrite set_nth_len; lia). cbn [bind]. rewrite set_nth_nth by lia. destruct (Nat.eqb_spec b a); [congruence|]. rewrite Pb. cbn [app].
      rewrite <- Ea, <- Eb. eexists. split; [unfold lo, hi; cbn [fst snd]; rewrite Z.min_r, Z.max_l by lia; reflexivity|]. apply (New l1 l2 (rot 1 (n_typ c))); [exact E | | exact Sl]. destruct (Z.ltb_spec (n_ind c) (n_ind n)); [reflexivity | lia].
    - destruct (@insert_right (n_ind n) (n_ind c) (rot (-1) (n_typ c)) (nth a wc [])) as (l1 & l2 & E & Sl & Loc); [lia | now rewrite Ea | now rewrite Ea | exact Nb|]. rewrite Loc. assert (F1 : firstn (List.length l1) (nth a wc []) = l1) by (rewrite E, firstn_app, firstn_all, Nat.sub_diag; cbn [firstn]; apply app_nil_r). assert (F2 : skipn (List.length l1) (nth a wc []) = l2) by (rewrite E, skipn_app, skipn_all, Nat.sub_diag; reflexivity). cbv zeta. rewrite F1, F2.
      rewrite Ea, py_set_nat by lia. cbn [bind]. rewrite Eb, (@py_index_nth _ _ b []) by (rewrite set_nth_len; lia). cbn [bind]. rewrite py_set_nat by (rewrite set_nth_len; lia). cbn [bind]. rewrite set_nth_nth by lia. destruct (Nat.eqb_spec b a); [congruence|]. rewrite Pb. cbn [app].
      rewrite <- Ea, <- Eb. eexists. split; [unfold lo, hi; cbn [fst snd]; rewrite Z.min_l, Z.max_r by lia; reflexivity|]. apply (New l1 l2 (rot (-1) (n_typ c))); [exact E | | exact Sl]. destruct (Z.ltb_spec (n_ind c) (n_ind n)); [lia | reflexivity].
  Qed.
  Lemma steps_ok ps : forall A wc cups, inv A wc -> heads A -> (forall i, In i (known A) -> (0 <= i < Z.of_nat ntok)%Z) -> (forall x, In x A -> n_ind (fst x) <> n_ind (snd x)) -> growth (known A) ps ->
    exists wc', foldM (fun st '(n, c) => add_child n st c) ps (wc, cups) = Ok (wc', cups ++ map (fun x => (lo x, hi x)) ps) /\ inv (A ++ ps) wc'.
  Proof.
    induction ps as [|[n c] ps IH]; intros A wc cups I Hh Hk Irr G; [exists wc; cbn; rewrite !app_nil_r; auto|]. inversion G as [|? ? ? ? G1 G2 G3 G4]; subst. destruct (step_ok cups I Hh Hk G1 G2 G3 Irr) as (wc1 & E1 & I1). cbn [foldM]. rewrite E1. cbn [bind].
    assert (Kn : known (A ++ [(n, c)]) = known A ++ [n_ind c]) by (unfold known; rewrite map_app; reflexivity).
    destruct (IH (A ++ [(n, c)]) wc1 (cups ++ [(lo (n, c), hi (n, c))]) I1) as (wc2 & E2 & I2).
    - intros x Hx. rewrite Kn. apply in_or_app. left. apply in_app_or in Hx. destruct Hx as [Hx | [<- | []]]; [now apply Hh | exact G1].
    - intros i Hi. rewrite Kn in Hi. apply in_app_or in Hi. destruct Hi as [Hi | [<- | []]]; auto.
    - intros x Hx. apply in_app_or in Hx. destruct Hx as [Hx | [<- | []]]; [now apply Irr|]. cbn. intros E. now rewrite E in G1.
    - now rewrite Kn.
    - exists wc2. rewrite E2. split; [cbn [map]; now rewrite <- app_assoc | now rewrite <- app_assoc in I2].
  Qed.
End Steps.
