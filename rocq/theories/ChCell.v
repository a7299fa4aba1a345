(** Proofs about a cell of the chart (C84). *)
From Coq Require Import Permutation.
From Verif Require Import PyBase PyFacts BobModel ChModel ChSpec.
Close Scope string_scope. Set Implicit Arguments. Unset Strict Implicit.
Section Facts.
  Variables (T C Sc : Type) (cat_of : T -> C) (score : T -> Sc) (ltb : Sc -> Sc -> bool) (ninf : Sc) (eqc : C -> C -> bool) (is_same : T -> T -> bool) (good : C -> Prop).
  Hypothesis Ord : score_order ltb.
  Hypothesis eq_refl' : forall a, good a -> eqc a a = true.
  Hypothesis eq_sym' : forall a b, good a -> good b -> eqc a b = true -> eqc b a = true.
  Hypothesis eq_trans' : forall a b c, good a -> good b -> good c -> eqc a b = true -> eqc b c = true -> eqc a c = true.
  Hypothesis is_refl : forall t, is_same t t = true.
  Hypothesis is_cat : forall t u, is_same t u = true -> eqc (cat_of t) (cat_of u) = true.
  Notation ge := (ge score ltb).
  Notation okl := (Forall (fun t => good (cat_of t))).
  (** ** scores *)
  Lemma lt_irr a : ltb a a = false.
  Proof. destruct (ltb a a) eqn:E; auto. rewrite <- E. apply (so_asym Ord E). Qed.
  Lemma lt_le a b : ltb a b = true -> ltb b a = false.
  Proof. apply (so_asym Ord). Qed.
  Lemma le_tr a b c : ltb b a = false -> ltb c b = false -> ltb c a = false.
  Proof. apply (so_trans Ord). Qed.
  Lemma lt_le_tr a b c : ltb a b = true -> ltb c b = false -> ltb a c = true.
  Proof. intros H1 H2. destruct (ltb a c) eqn:E; auto. assert (X := le_tr H2 E). congruence. Qed.
  Lemma le_lt_tr a b c : ltb b a = false -> ltb b c = true -> ltb a c = true.
  Proof. intros H1 H2. destruct (ltb a c) eqn:E; auto. assert (X := le_tr E H1). congruence. Qed.
  Lemma eqs_le a b : eqs ltb a b = true <-> ltb a b = false /\ ltb b a = false.
  Proof. unfold eqs. rewrite andb_true_iff, !negb_true_iff. reflexivity. Qed.
  (** ** sorted lists *)
  Fixpoint dsc (l : list T) : Prop := match l with [] => True | t :: l' => Forall (ge t) l' /\ dsc l' end.
  Lemma dsc_app l1 l2 : dsc (l1 ++ l2) <-> dsc l1 /\ dsc l2 /\ forall a b, In a l1 -> In b l2 -> ge a b.
  Proof.
    induction l1 as [|t l1 IH]; cbn [app dsc]; [split; [intro H; split; auto; split; auto; intros a b []|tauto]|].
    rewrite Forall_app, IH. rewrite !Forall_forall. split.
    - intros ((A & B) & D & E & F). repeat split; auto. intros a b [<-|Ha] Hb; auto.
    - intros ((A & B) & D & E). repeat split; auto; intros; apply E; cbn; auto.
  Qed.
  Lemma dsc_nth l : dsc l -> descending score ltb l.
  Proof.
    induction l as [|t l IH]; intros D i j a b L Ea Eb; [destruct i; discriminate|]. destruct D as [F D]. destruct j as [|j]; [lia|]. cbn in Eb. destruct i as [|i]; cbn in Ea.
    - injection Ea as <-. rewrite Forall_forall in F. apply F. eapply nth_error_In; eauto.
    - eapply (IH D i j); eauto. lia.
  Qed.
  Lemma find_from_ok l sc : dsc l -> forall f lo hi, lo <= hi -> hi <= List.length l -> hi - lo <= f ->
    (forall j t, j < lo -> nth_error l j = Some t -> ltb (score t) sc = false) -> (forall j t, hi <= j -> nth_error l j = Some t -> ltb sc (score t) = false) ->
    let i := find_from score ltb f l sc lo hi in i <= List.length l /\ (forall j t, j < i -> nth_error l j = Some t -> ltb (score t) sc = false) /\ (forall j t, i <= j -> nth_error l j = Some t -> ltb sc (score t) = false).
  Proof.
    intro D. assert (Dn := dsc_nth D). induction f as [|f IH]; intros lo hi A B F H1 H2; cbn [find_from]; cbv zeta. { repeat split; auto; [lia|]. intros j t Hj. apply H2. lia. }
    destruct (Nat.ltb_spec lo hi) as [Lt|Ge]; [|repeat split; auto; [lia|]; intros j t Hj; apply H2; lia].
    set (mid := (lo + hi) / 2). assert (M : lo <= mid < hi). { unfold mid. split; [apply Nat.div_le_lower_bound; lia|apply Nat.div_lt_upper_bound; lia]. }
    destruct (nth_error l mid) as [t|] eqn:E; [|apply nth_error_None in E; lia].
    destruct (eqs ltb sc (score t)) eqn:Q.
    - apply eqs_le in Q. destruct Q as [Q1 Q2]. repeat split; [lia| |].
      + intros j u Hj Eu. assert (X := Dn j mid u t Hj Eu E). unfold ChSpec.ge in X. eapply le_tr; [|exact X]. exact Q2.
      + intros j u Hj Eu. destruct (Nat.eq_dec j mid) as [->|Ne]; [congruence|]. assert (X := Dn mid j t u ltac:(lia) E Eu). unfold ChSpec.ge in X. eapply le_tr; [exact X|exact Q1].
    - destruct (ltb (score t) sc) eqn:L.
      + apply IH; auto; try lia. intros j u Hj Eu. apply lt_le. destruct (Nat.eq_dec j mid) as [->|Ne]; [congruence|]. assert (X := Dn mid j t u ltac:(lia) E Eu). unfold ChSpec.ge in X. eapply le_lt_tr; [exact X|exact L].
      + apply IH; auto; try lia. intros j u Hj Eu. destruct (Nat.eq_dec j mid) as [->|Ne]; [congruence|]. assert (X := Dn j mid u t ltac:(lia) Eu E). unfold ChSpec.ge in X. eapply le_tr; [|exact X]. exact L.
  Qed.
  Lemma in_firstn_nth A (l : list A) i a : In a (firstn i l) -> exists j, j < i /\ nth_error l j = Some a.
  Proof. revert l. induction i as [|i IH]; intros [|x l] H; cbn in H; try contradiction. destruct H as [->|H]; [exists 0; split; [lia|auto]|]. destruct (IH l H) as (j & L & E). exists (S j). split; [lia|auto]. Qed.
  Lemma in_skipn_nth A (l : list A) i a : In a (skipn i l) -> exists j, i <= j /\ nth_error l j = Some a.
  Proof. revert l. induction i as [|i IH]; intros l H; cbn in H; [apply In_nth_error in H; destruct H as [j E]; exists j; split; [lia|auto]|]. destruct l as [|x l]; [contradiction|]. destruct (IH l H) as (j & L & E). exists (S j). split; [lia|auto]. Qed.
  Lemma find_pos_ok l sc : dsc l -> let i := find_pos score ltb l sc in i <= List.length l /\ (forall t, In t (firstn i l) -> ltb (score t) sc = false) /\ (forall t, In t (skipn i l) -> ltb sc (score t) = false).
  Proof.
    intro D. destruct (@find_from_ok l sc D (List.length l) 0 (List.length l)) as (A & B & E); try lia. { intros j t Hj Q. exfalso. assert (X : nth_error l j <> None) by congruence. apply nth_error_Some in X. lia. }
    cbv zeta. split; [exact A|]. split; intros t Ht; [apply in_firstn_nth in Ht|apply in_skipn_nth in Ht]; destruct Ht as (j & Lj & Ej); eauto.
  Qed.
  (** ** categories *)
  Fixpoint uniq (l : list T) : Prop := match l with [] => True | t :: l' => Forall (fun u => eqc (cat_of t) (cat_of u) = false) l' /\ uniq l' end.
  Lemma uniq_app l1 l2 : uniq (l1 ++ l2) <-> uniq l1 /\ uniq l2 /\ forall a b, In a l1 -> In b l2 -> eqc (cat_of a) (cat_of b) = false.
  Proof.
    induction l1 as [|t l1 IH]; cbn [app uniq]; [split; [intro H; split; auto; split; auto; intros a b []|tauto]|].
    rewrite Forall_app, IH. rewrite !Forall_forall. split.
    - intros ((A & B) & D & E & F). repeat split; auto. intros a b [<-|Ha] Hb; auto.
    - intros ((A & B) & D & E). repeat split; auto; intros; apply E; cbn; auto.
  Qed.
  Lemma eqc_sym_false a b : good a -> good b -> eqc a b = false -> eqc b a = false.
  Proof. intros Ga Gb H. destruct (eqc b a) eqn:E; auto. apply eq_sym' in E; auto. congruence. Qed.
  Lemma uniq_nth l : okl l -> uniq l -> one_per_category cat_of eqc l.
  Proof.
    assert (X : forall l, okl l -> uniq l -> forall i j a b, i < j -> nth_error l i = Some a -> nth_error l j = Some b -> eqc (cat_of a) (cat_of b) = false).
    { clear l. induction l as [|t l IH]; intros O D i j a b L Ea Eb; [destruct i; discriminate|]. destruct D as [F D]. inversion O; subst. destruct j as [|j]; [lia|]. cbn in Eb. destruct i as [|i]; cbn in Ea.
      - injection Ea as <-. rewrite Forall_forall in F. apply F. eapply nth_error_In; eauto.
      - eapply (IH ltac:(auto) D i j); eauto. lia. }
    intros O U i j a b N Ea Eb. destruct (Nat.lt_ge_cases i j) as [L|L]; [eapply X; eauto|]. rewrite Forall_forall in O. apply eqc_sym_false; [apply O; eapply nth_error_In; eauto|apply O; eapply nth_error_In; eauto|]. apply (X l ltac:(now apply Forall_forall) U j i b a); auto. lia.
  Qed.
  (** ** the dictionary *)
  Fixpoint uniqk (m : list (C * T)) : Prop := match m with [] => True | p :: m' => Forall (fun q => eqc (fst p) (fst q) = false) m' /\ uniqk m' end.
  Definition mc (l : list T) (m : list (C * T)) : Prop :=
    (forall k t, In (k, t) m -> In t l /\ eqc k (cat_of t) = true /\ good k /\ good (cat_of t)) /\ (forall t, In t l -> exists k, In (k, t) m) /\ uniqk m.
  Lemma uniqk_in m k t k' t' : uniqk m -> (forall k t, In (k, t) m -> good k) -> In (k, t) m -> In (k', t') m -> eqc k k' = true -> (k, t) = (k', t').
  Proof.
    induction m as [|p m IH]; intros U G H H' E; [contradiction|]. destruct U as [F U]. rewrite Forall_forall in F. destruct H as [->|H], H' as [E'|H'].
    - congruence.
    - specialize (F _ H'). cbn in F. congruence.
    - subst p. specialize (F _ H). cbn in F. apply eq_sym' in E; [congruence|apply (G k t); now right|apply (G k' t'); now left].
    - apply IH; auto. intros. apply (G k0 t0). now right.
  Qed.
  Lemma m_get_ok l m c t : mc l m -> good c -> uniq l -> (m_get eqc c m = Some t <-> In t l /\ eqc (cat_of t) c = true).
  Proof.
    intros (A & B & U) Gc Ul. unfold m_get. split.
    - destruct (find _ m) as [[k u]|] eqn:F; [|discriminate]. intros [= <-]. apply find_some in F. cbn in F. destruct F as [I E]. destruct (A k u I) as (A1 & A2 & A3 & A4). split; auto. apply (@eq_trans' _ k); auto.
    - intros [I E]. destruct (B t I) as [k Hk]. destruct (A k t Hk) as (_ & A2 & A3 & A4). assert (Ek : eqc k c = true) by (apply (@eq_trans' _ (cat_of t)); auto).
      destruct (find _ m) as [[k' u]|] eqn:F.
      + apply find_some in F. cbn in F. destruct F as [I' E']. destruct (A k' u I') as (_ & _ & G' & _). assert (X : (k, t) = (k', u)). { apply (uniqk_in U) ; auto; [intros k0 t0 H0; apply (A k0 t0 H0)|]. apply (@eq_trans' _ c); auto. } injection X as -> ->. reflexivity.
      + assert (N := find_none _ _ F _ Hk). cbn in N. congruence.
  Qed.
  Lemma m_get_none l m c : mc l m -> good c -> uniq l -> m_get eqc c m = None -> forall t, In t l -> eqc (cat_of t) c = false.
  Proof. intros M Gc U N t I. destruct (eqc (cat_of t) c) eqn:E; auto. assert (X : m_get eqc c m = Some t) by (apply (@m_get_ok l); auto). congruence. Qed.
  Lemma m_set_in c (t : T) m k u : (forall k t, In (k, t) m -> good k) -> good c -> uniqk m ->
    In (k, u) (m_set eqc c t m) -> (eqc k c = false /\ In (k, u) m) \/ (eqc k c = true /\ good k /\ u = t).
  Proof.
    intros G Gc. induction m as [|p m IH]; intros U; cbn [m_set].
    - intros [[= <- <-]|[]]. right. auto.
    - destruct U as [F U]. destruct (eqc (fst p) c) eqn:E.
      + intros [[= <- <-]|H]; [right; repeat split; auto; apply (G (fst p) (snd p)); left; now destruct p|]. left. split; [|now right]. rewrite Forall_forall in F. specialize (F _ H). cbn in F.
        destruct (eqc k c) eqn:E2; auto. assert (good (fst p)) by (apply (G (fst p) (snd p)); left; now destruct p). assert (good k) by (apply (G k u); now right).
        assert (eqc (fst p) k = true) by (apply (@eq_trans' _ c); auto). congruence.
      + intros [->|H]; [left; split; auto; now left|]. destruct (IH (fun k t H => G k t (or_intror H)) U H) as [[H1 H2]|H1]; [left; split; auto; now right|now right].
  Qed.
  Lemma m_set_has c (t : T) m : good c -> (exists k, In (k, t) (m_set eqc c t m)) /\ forall k u, eqc k c = false -> In (k, u) m -> In (k, u) (m_set eqc c t m).
  Proof.
    intro Gc. induction m as [|p m [IH1 IH2]]; cbn [m_set]; [split; [exists c; now left|intros k u _ []]|]. destruct (eqc (fst p) c) eqn:E.
    - split; [exists (fst p); now left|]. intros k u N [->|H]; [cbn in E; congruence|now right].
    - split; [destruct IH1 as [k H]; exists k; now right|]. intros k u N [->|H]; [now left|right; auto].
  Qed.
  Lemma m_set_keys c (t : T) m : good c -> (forall k t, In (k, t) m -> good k) -> uniqk m -> uniqk (m_set eqc c t m).
  Proof.
    intros Gc. induction m as [|p m IH]; intros G U; cbn [m_set]; [cbn; auto|]. destruct U as [F U]. destruct (eqc (fst p) c) eqn:E; cbn [uniqk fst]; [split; auto|]. split; [|apply IH; auto; intros k u H; apply (G k u); now right].
    rewrite Forall_forall in *. intros [k u] H. cbn [fst]. destruct p as [k0 t0]. cbn [fst] in *. assert (G0 : good k0) by (apply (G k0 t0); now left).
    apply m_set_in in H; auto; [|intros k' u' H'; apply (G k' u'); now right]. destruct H as [[_ H]|(H1 & H2 & _)]; [apply (F _ H)|]. destruct (eqc k0 k) eqn:Q; auto. assert (eqc k0 c = true) by (apply (@eq_trans' _ k); auto). congruence.
  Qed.
  Lemma mc_good l m k t : mc l m -> In (k, t) m -> good k.
  Proof. intros (A & _) H. apply (A k t H). Qed.
  (** replacing: [l'] is what remains of [l] when the trees of [t]'s category are removed *)
  Lemma mc_set l l' m t : mc l m -> good (cat_of t) -> (forall u, In u l' <-> In u l /\ eqc (cat_of u) (cat_of t) = false) -> mc (t :: l') (m_set eqc (cat_of t) t m).
  Proof.
    intros M Gt H. assert (Gk : forall k u, In (k, u) m -> good k) by (intros; eapply mc_good; eauto). destruct M as (A & B & U). destruct (@m_set_has (cat_of t) t m Gt) as [S1 S2]. split; [|split; [|apply m_set_keys; auto]].
    - intros k u I. apply m_set_in in I; auto. destruct I as [[N I]|(E & G & ->)]; [|split; [now left|auto]].
      destruct (A k u I) as (A1 & A2 & A3 & A4). split; [|auto]. right. apply H. split; auto. destruct (eqc (cat_of u) (cat_of t)) eqn:Q; auto. assert (eqc k (cat_of t) = true) by (apply (@eq_trans' _ (cat_of u)); auto). congruence.
    - intros u [<-|I]; auto. apply H in I. destruct I as [I N]. destruct (B u I) as [k Hk]. exists k. apply S2; auto. destruct (A k u Hk) as (_ & A2 & A3 & A4). destruct (eqc k (cat_of t)) eqn:Q; auto.
      assert (eqc (cat_of u) (cat_of t) = true) by (apply (@eq_trans' _ k); auto). congruence.
  Qed.
  Lemma m_del_ok c (m : list (C * T)) : (forall k t, In (k, t) m -> good k) -> good c -> uniqk m -> (exists k t, In (k, t) m /\ eqc k c = true) ->
    exists m', m_del eqc c m = Ok m' /\ uniqk m' /\ forall k t, In (k, t) m' <-> In (k, t) m /\ eqc k c = false.
  Proof.
    intros G Gc. induction m as [|p m IH]; intros U (k & t & I & E); [contradiction|]. destruct U as [F U]. cbn [m_del]. destruct (eqc (fst p) c) eqn:Q.
    - exists m. split; auto. split; auto. intros k' t'. rewrite Forall_forall in F. split.
      + intro H. split; [now right|]. specialize (F _ H). cbn in F. destruct (eqc k' c) eqn:Q'; auto. assert (good (fst p)) by (apply (G (fst p) (snd p)); left; now destruct p). assert (good k') by (apply (G k' t'); now right).
        assert (eqc (fst p) k' = true) by (apply (@eq_trans' _ c); auto). congruence.
      + intros [[->|H] N]; auto. cbn in Q. congruence.
    - destruct IH as (m' & E1 & U1 & S1); auto. { intros k' t' H. apply (G k' t'). now right. } { destruct I as [->|I]; [cbn in Q; congruence|]. exists k, t. auto. }
      rewrite E1. cbn [rmap]. eexists. split; [reflexivity|]. split.
      + cbn [uniqk]. split; auto. rewrite Forall_forall in *. intros [k' t'] H. apply F. apply S1 in H. apply H.
      + intros k' t'. cbn [In]. rewrite S1. split; [intros [->|[H N]]; [split; [now left|exact Q]|split; auto]|intros [[->|H] N]; auto].
  Qed.
  Lemma mc_del l m x : uniq l -> okl l -> mc l m -> In x l -> exists m', m_del eqc (cat_of x) m = Ok m' /\ forall l', (forall u, In u l' <-> In u l /\ eqc (cat_of u) (cat_of x) = false) -> mc l' m'.
  Proof.
    intros Ul Ol M I. assert (Gk : forall k u, In (k, u) m -> good k) by (intros; eapply mc_good; eauto). destruct M as (A & B & U). rewrite Forall_forall in Ol. assert (Gx := Ol x I).
    destruct (B x I) as [k Hk]. destruct (A k x Hk) as (_ & A2 & A3 & A4).
    destruct (@m_del_ok (cat_of x) m Gk Gx U) as (m' & E & U' & S'); [exists k, x; auto|]. exists m'. split; auto. intros l' H. split; [|split; auto].
    - intros k' u I'. apply S' in I'. destruct I' as [I' N]. destruct (A k' u I') as (B1 & B2 & B3 & B4). split; auto. apply H. split; auto. destruct (eqc (cat_of u) (cat_of x)) eqn:Q; auto. assert (eqc k' (cat_of x) = true) by (apply (@eq_trans' _ (cat_of u)); auto). congruence.
    - intros u Iu. apply H in Iu. destruct Iu as [Iu N]. destruct (B u Iu) as [k' Hk']. exists k'. apply S'. split; auto. destruct (A k' u Hk') as (_ & B2 & B3 & B4). destruct (eqc k' (cat_of x)) eqn:Q; auto.
      assert (eqc (cat_of u) (cat_of x) = true) by (apply (@eq_trans' _ k'); auto). congruence.
  Qed.
  Lemma mc_ext l l' m : (forall u, In u l <-> In u l') -> mc l m -> mc l' m.
  Proof. intros H (A & B & U). split; [intros k t I; destruct (A k t I) as (A1 & X); split; auto; now apply H|split; auto]. intros t I. apply B. now apply H. Qed.
  (** deleting the trees after the first ones *)
  Lemma mc_del_many : forall ys xs m, uniq (xs ++ ys) -> okl (xs ++ ys) -> mc (xs ++ ys) m -> exists m', foldM (fun m x => m_del eqc (cat_of x) m) ys m = Ok m' /\ mc xs m'.
  Proof.
    induction ys as [|y ys IH]; intros xs m U O M; cbn [foldM]; [exists m; split; auto; now rewrite app_nil_r in M|].
    destruct (@mc_del (xs ++ y :: ys) m y U O M) as (m1 & E & H); [apply in_or_app; right; now left|]. rewrite E. cbn [bind].
    assert (U1 : uniq (xs ++ ys)). { apply uniq_app in U. destruct U as (U1 & [U2 U3] & U4). apply uniq_app. repeat split; auto. intros; apply U4; cbn; auto. }
    assert (O1 : okl (xs ++ ys)). { apply Forall_app in O. destruct O as [O1 O2]. inversion O2; subst. apply Forall_app; auto. }
    apply IH; auto. apply H. intro u. rewrite !in_app_iff. cbn [In]. apply uniq_app in U. destruct U as (_ & [F _] & X). rewrite Forall_forall in F. rewrite Forall_forall in O. assert (Gy : good (cat_of y)) by (apply O; apply in_or_app; right; now left). split.
    - intros [I|I]; split; auto; [apply X; cbn; auto|apply eqc_sym_false; auto; apply O; apply in_or_app; right; now right].
    - intros [[I|[->|I]] N]; auto. rewrite eq_refl' in N; [discriminate|auto].
  Qed.
  (** ** removing the old tree *)
  Lemma nth_split' A (l : list A) i a : nth_error l i = Some a -> l = (firstn i l ++ a :: skipn (S i) l)%list.
  Proof. revert l. induction i as [|i IH]; intros [|x l] H; try discriminate; [injection H as ->; reflexivity|]. cbn [firstn skipn app]. f_equal. now apply IH. Qed.
  Lemma scan_up_ok old os : forall l i, (exists a b, l = (a ++ old :: b)%list /\ Forall (fun t => is_same t old = false /\ eqs ltb (score t) os = true) a) -> exists j, scan_up score ltb is_same old os i l = Some (i + j) /\ nth_error l j = Some old.
  Proof.
    induction l as [|t l IH]; intros i (a & b & E & F); [destruct a; discriminate|]. cbn [scan_up]. destruct a as [|x a]; cbn in E; injection E as -> ->.
    - rewrite is_refl. exists 0. split; [f_equal; lia|reflexivity].
    - inversion F as [|? ? [F1 F2] F3]; subst. rewrite F1, F2. destruct (IH (S i)) as (j & E1 & E2); [exists a, b; auto|]. exists (S j). rewrite E1. split; [f_equal; lia|exact E2].
  Qed.
  Lemma scan_up_none old os : forall l i, Forall (fun t => is_same t old = false) l -> scan_up score ltb is_same old os i l = None.
  Proof. induction l as [|t l IH]; intros i F; cbn; auto. inversion F; subst. rewrite H1. destruct (eqs ltb (score t) os); auto. Qed.
  Lemma scan_down_ok old : forall l, (exists a b, l = (a ++ old :: b)%list /\ Forall (fun t => is_same t old = false) a) -> exists j, scan_down is_same old (List.length l) l = Some j /\ nth_error (rev l) j = Some old.
  Proof.
    induction l as [|t l IH]; intros (a & b & E & F); [destruct a; discriminate|]. cbn [scan_down List.length pred rev]. destruct a as [|x a]; cbn in E; injection E as -> ->.
    - rewrite is_refl. exists (List.length b). split; auto. rewrite nth_error_app2; rewrite rev_length; auto. now rewrite Nat.sub_diag.
    - inversion F as [|? ? F1 F3]; subst. rewrite F1. destruct IH as (j & E1 & E2); [exists a, b; auto|]. exists j. split; auto. rewrite nth_error_app1; auto. assert (X : nth_error (rev (a ++ old :: b)) j <> None) by congruence. now apply nth_error_Some in X.
  Qed.
  Lemma remove_old_ok l old : dsc l -> uniq l -> okl l -> In old l -> exists l1 l2, l = (l1 ++ old :: l2)%list /\ remove_old score ltb is_same l old = (l1 ++ l2)%list.
  Proof.
    intros D U O I. assert (Q : forall j t, nth_error l j = Some t -> is_same t old = true -> t = old).
    { intros j t E S. apply In_nth_error in I. destruct I as [p Ep]. destruct (Nat.eq_dec j p) as [->|N]; [congruence|]. assert (X := uniq_nth O U N E Ep). rewrite (is_cat S) in X. discriminate. }
    destruct (@find_pos_ok l (score old) D) as (A & B & E). unfold remove_old. set (i := find_pos score ltb l (score old)) in *. cbv zeta in *.
    apply in_split in I. destruct I as (l1 & l2 & El).
    assert (P : nth_error l (List.length l1) = Some old) by (rewrite El, nth_error_app2 by lia; now rewrite Nat.sub_diag).
    assert (Only : forall j, nth_error l j = Some old -> j = List.length l1). { intros j Ej. destruct (Nat.eq_dec j (List.length l1)) as [|N]; auto. assert (X := uniq_nth O U N Ej P). rewrite eq_refl' in X; [discriminate|]. rewrite Forall_forall in O. apply O. eapply nth_error_In; eauto. }
    assert (Del : forall j, nth_error l j = Some old -> exists l1 l2, l = (l1 ++ old :: l2)%list /\ del_nth l j = (l1 ++ l2)%list). { intros j Ej. exists (firstn j l), (skipn (S j) l). split; [now apply nth_split'|reflexivity]. }
    assert (NS : forall j t, nth_error l j = Some t -> j <> List.length l1 -> is_same t old = false). { intros j t Ej N. destruct (is_same t old) eqn:S; auto. assert (t = old) by eauto. subst. exfalso. apply N, Only, Ej. }
    destruct (Nat.le_gt_cases i (List.length l1)) as [Le|Gt].
    - destruct (@scan_up_ok old (score old) (skipn i l) i) as (j & E1 & E2).
      + exists (skipn i l1), l2. rewrite El. split; [rewrite skipn_app; replace (i - List.length l1) with 0 by lia; reflexivity|]. apply Forall_forall. intros t Ht. apply in_skipn_nth in Ht. destruct Ht as (j & Lj & Ej). assert (Lj2 : j < List.length l1) by (apply nth_error_Some; congruence).
        assert (Ej2 : nth_error l j = Some t) by (rewrite El, nth_error_app1; auto). split; [apply (NS j); auto; lia|]. apply eqs_le. split; [apply (dsc_nth D Lj2 Ej2 P)|]. apply E. rewrite <- (firstn_skipn i l) in Ej2. rewrite nth_error_app2 in Ej2 by (rewrite firstn_length; lia). eapply nth_error_In; eauto.
      + rewrite E1. apply Del. rewrite <- (firstn_skipn i l), nth_error_app2 by (rewrite firstn_length; lia). rewrite firstn_length, Nat.min_l by lia. replace (i + j - i) with j by lia. exact E2.
    - rewrite scan_up_none.
      + destruct (@scan_down_ok old (rev (firstn i l))) as (j & E1 & E2).
        * exists (rev (firstn (i - S (List.length l1)) l2)), (rev l1). assert (Ef : firstn i l = (l1 ++ old :: firstn (i - S (List.length l1)) l2)%list).
          { rewrite El, firstn_app, firstn_all2 by lia. f_equal. replace (i - List.length l1) with (S (i - S (List.length l1))) by lia. reflexivity. }
          rewrite Ef, rev_app_distr. cbn [rev]. rewrite <- app_assoc. split; [reflexivity|]. apply Forall_rev. apply Forall_forall. intros t Ht. apply in_firstn_nth in Ht. destruct Ht as (j & Lj & Ej). apply (NS (S (List.length l1) + j)); [|lia].
          rewrite El, nth_error_app2 by lia. replace (S (List.length l1) + j - List.length l1) with (S j) by lia. exact Ej.
        * rewrite rev_length in E1. rewrite firstn_length, Nat.min_l in E1 by lia. rewrite E1. rewrite rev_involutive in E2. apply Del. rewrite <- (firstn_skipn i l), nth_error_app1; auto. apply nth_error_Some. congruence.
      + apply Forall_forall. intros t Ht. apply in_skipn_nth in Ht. destruct Ht as (j & Lj & Ej). apply (NS j); auto. lia.
  Qed.
  (** ** the invariant of a cell; [off] are the trees offered to it so far *)
  Variable b : nat.
  Hypothesis b1 : 1 <= b.
  Notation cell := (@cell T C Sc).
  Notation kept := (kept cat_of score ltb eqc b).
  Record cinv (c : cell) (off : T -> Prop) : Prop := {
    ci_ok : okl (trees c); ci_dsc : dsc (trees c); ci_uniq : uniq (trees c); ci_map : mc (trees c) (tmap c); ci_beam : within_beam score ltb b (trees c);
    ci_min : (List.length (trees c) < b /\ minsc c = ninf) \/ (exists t, nth_error (trees c) (b - 1) = Some t /\ minsc c = score t);
    ci_kept : forall t, off t -> good (cat_of t) /\ kept (trees c) t }.
  Lemma kept_sub l t u : good (cat_of t) -> good (cat_of u) -> eqc (cat_of u) (cat_of t) = true -> ge u t -> In u l -> kept l t.
  Proof. intros. right. left. exists u. auto. Qed.
  Lemma beam_all l s : dsc l -> within_beam score ltb b l -> nth_error l (b - 1) = Some s -> forall u, In u l -> ge u s.
  Proof.
    intros D W E u I. apply In_nth_error in I. destruct I as [i Ei]. destruct (Nat.lt_ge_cases i b) as [L|L]; [|apply (W i s u L E Ei)].
    destruct (Nat.eq_dec i (b - 1)) as [->|N]; [assert (u = s) by congruence; subst; apply lt_irr|]. apply (dsc_nth D (j := b - 1) (i := i)); auto. lia.
  Qed.
  Lemma rev_head_last A (l : list A) x r : rev l = x :: r -> l = (rev r ++ [x])%list.
  Proof. intro H. rewrite <- (rev_involutive l), H. reflexivity. Qed.
  Lemma nth_some A (l : list A) i : i < List.length l -> exists x, nth_error l i = Some x.
  Proof. intro L. destruct (nth_error l i) eqn:E; eauto. apply nth_error_None in E. lia. Qed.
  Lemma py_b (l : list T) : py_index l (Z.of_nat b - 1) = match nth_error l (b - 1) with Some t => Ok t | None => Err IndexError end.
  Proof.
    unfold py_index. replace (Z.of_nat b - 1 <? 0)%Z with false by (symmetry; apply Z.ltb_ge; lia). replace (Z.to_nat (Z.of_nat b - 1)) with (b - 1) by lia.
    destruct (nth_error l (b - 1)) eqn:E.
    - assert (L : b - 1 < List.length l) by (apply nth_error_Some; congruence). replace (0 <=? Z.of_nat b - 1)%Z with true by (symmetry; apply Z.leb_le; lia). replace (Z.of_nat b - 1 <? Z.of_nat (List.length l))%Z with true by (symmetry; apply Z.ltb_lt; lia). reflexivity.
    - destruct ((0 <=? Z.of_nat b - 1)%Z && (Z.of_nat b - 1 <? Z.of_nat (List.length l))%Z); reflexivity.
  Qed.
  Definition beam_pre (l : list T) : Prop := forall t u v i, nth_error l (b - 1) = Some t -> nth_error l b = Some u -> ge u t -> b <= i -> nth_error l i = Some v -> ge v t.
  Lemma apply_beam_ok c (off : T -> Prop) a : okl (trees c) -> dsc (trees c) -> uniq (trees c) -> mc (trees c) (tmap c) -> beam_pre (trees c) -> (List.length (trees c) < b -> minsc c = ninf) ->
    (forall t, off t -> good (cat_of t) /\ kept (trees c) t) ->
    exists c' a', apply_beam cat_of score ltb eqc b c a = Ok (c', a') /\ cinv c' off /\ incl (trees c') (trees c) /\ (a' - Z.of_nat (List.length (trees c')) = a - Z.of_nat (List.length (trees c)))%Z.
  Proof.
    intros O D U M P Mi K. unfold apply_beam. rewrite py_b. destruct (nth_error (trees c) (b - 1)) as [t|] eqn:Et.
    - destruct (nth_error (trees c) b) as [u|] eqn:Eu.
      + destruct (ltb (score u) (score t)) eqn:L.
        * assert (Lb : b < List.length (trees c)) by (apply nth_error_Some; congruence). assert (Sp := firstn_skipn b (trees c)). rewrite <- Sp in O, D, U, M.
          destruct (@mc_del_many (skipn b (trees c)) (firstn b (trees c)) (tmap c) U O M) as (m' & -> & M'). cbn [bind]. eexists. eexists. split; [reflexivity|].
          assert (Et' : nth_error (firstn b (trees c)) (b - 1) = Some t). { rewrite <- Sp in Et. rewrite nth_error_app1 in Et; auto. rewrite firstn_length. lia. }
          apply Forall_app in O. destruct O as [O1 O2]. apply dsc_app in D. destruct D as (D1 & D2 & D3). apply uniq_app in U. destruct U as (U1 & U2 & U3).
          split; [|split; [cbn [trees]; intros x Hx; eapply (firstn_In) in Hx || (rewrite <- Sp; apply in_or_app; now left); auto|]].
          -- constructor; cbn [trees tmap minsc]; auto.
             ++ intros i x y Hi _ Ey. exfalso. assert (X : nth_error (firstn b (trees c)) i <> None) by congruence. apply nth_error_Some in X. rewrite firstn_length in X. lia.
             ++ right. exists t. auto.
             ++ intros o Ho. destruct (K o Ho) as [G [I|[(w & I & E & W)|[F1 F2]]]]; split; auto.
                ** rewrite <- Sp in I. apply in_app_or in I. destruct I as [I|I]; [now left|]. right. right. split; [rewrite firstn_length; lia|]. intros w Hw. apply in_skipn_nth in I. destruct I as (j & Lj & Ej).
                   assert (X : ltb (score o) (score t) = true). { destruct (Nat.eq_dec j b) as [->|N]; [congruence|]. assert (Y : ge u o). { rewrite <- Sp in Eu, Ej. assert (Dl : dsc (trees c)) by (rewrite <- Sp; apply dsc_app; auto). rewrite Sp in Eu, Ej. apply (dsc_nth Dl (i := b) (j := j)); auto. lia. } apply (@le_lt_tr _ (score u)); auto. }
                   apply (@lt_le_tr _ (score t)); auto. apply In_nth_error in Hw. destruct Hw as [i Ei]. assert (Li : i < b). { assert (Z0 : nth_error (firstn b (trees c)) i <> None) by congruence. apply nth_error_Some in Z0. rewrite firstn_length in Z0. lia. }
                   destruct (Nat.eq_dec i (b - 1)) as [->|N]; [assert (w = t) by congruence; subst; apply lt_irr|]. apply (dsc_nth D1 (i := i) (j := b - 1)); auto. lia.
                ** rewrite <- Sp in I. apply in_app_or in I. destruct I as [I|I]; [right; left; exists w; auto|]. right. right. split; [rewrite firstn_length; lia|]. intros v Hv. apply in_skipn_nth in I. destruct I as (j & Lj & Ej).
                   assert (X : ltb (score w) (score t) = true). { destruct (Nat.eq_dec j b) as [->|N]; [congruence|]. assert (Y : ge u w). { assert (Dl : dsc (trees c)) by (rewrite <- Sp; apply dsc_app; auto). apply (dsc_nth Dl (i := b) (j := j)); auto. lia. } apply (@le_lt_tr _ (score u)); auto. }
                   assert (X2 : ltb (score o) (score t) = true) by (apply (@le_lt_tr _ (score w)); auto).
                   apply (@lt_le_tr _ (score t)); auto. apply In_nth_error in Hv. destruct Hv as [i Ei]. assert (Li : i < b). { assert (Z0 : nth_error (firstn b (trees c)) i <> None) by congruence. apply nth_error_Some in Z0. rewrite firstn_length in Z0. lia. }
                   destruct (Nat.eq_dec i (b - 1)) as [->|N]; [assert (v = t) by congruence; subst; apply lt_irr|]. apply (dsc_nth D1 (i := i) (j := b - 1)); auto. lia.
                ** right. right. split; [rewrite firstn_length; lia|]. intros w Hw. apply F2. rewrite <- Sp. apply in_or_app. now left.
          -- cbn [trees]. rewrite firstn_length, Nat.min_l by lia. lia.
        * eexists. eexists. split; [reflexivity|]. split; [|split; [cbn [trees]; apply incl_refl|cbn [trees]; lia]]. constructor; cbn [trees tmap minsc]; auto; [|right; exists t; auto].
          intros i x y Hi Ex Ey. assert (x = t) by congruence. subst x. eapply P; eauto.
      + eexists. eexists. split; [reflexivity|]. split; [|split; [cbn [trees]; apply incl_refl|cbn [trees]; lia]]. constructor; cbn [trees tmap minsc]; auto; [|right; exists t; auto].
        intros i x y Hi Ex Ey. exfalso. assert (X : nth_error (trees c) i <> None) by congruence. apply nth_error_Some in X. apply nth_error_None in Eu. lia.
    - exists c, a. split; auto. split; [|split; [apply incl_refl|lia]]. apply nth_error_None in Et. constructor; auto.
      + intros i x y Hi Ex Ey. exfalso. assert (X : nth_error (trees c) i <> None) by congruence. apply nth_error_Some in X. lia.
      + left. split; [lia|]. apply Mi. lia.
  Qed.
  Lemma ins_in l i (t u : T) : In u (ins_nth l i t) <-> u = t \/ In u l.
  Proof. unfold ins_nth. rewrite in_app_iff. cbn [In]. rewrite <- (firstn_skipn i l) at 3. rewrite in_app_iff. intuition. Qed.
  Lemma ins_len l i (t : T) : List.length (ins_nth l i t) = S (List.length l).
  Proof. unfold ins_nth. rewrite app_length. cbn [List.length]. rewrite <- (firstn_skipn i l) at 3. rewrite app_length. lia. Qed.
  Lemma ins_dsc l t : dsc l -> dsc (ins_nth l (find_pos score ltb l (score t)) t).
  Proof.
    intro D. destruct (@find_pos_ok l (score t) D) as (A & B & E). cbv zeta in *. set (i := find_pos score ltb l (score t)) in *. unfold ins_nth. rewrite <- (firstn_skipn i l) in D. apply dsc_app in D. destruct D as (D1 & D2 & D3).
    apply dsc_app. split; auto. split; [cbn [dsc]; split; auto; apply Forall_forall; intros u Hu; apply E; auto|]. intros x y Hx [<-|Hy]; [apply B; auto|auto].
  Qed.
  Lemma ins_uniq l i t : okl l -> good (cat_of t) -> uniq l -> (forall u, In u l -> eqc (cat_of u) (cat_of t) = false) -> uniq (ins_nth l i t).
  Proof.
    intros O G U N. unfold ins_nth. assert (Sp := firstn_skipn i l). rewrite <- Sp in U. apply uniq_app in U. destruct U as (U1 & U2 & U3). rewrite Forall_forall in O.
    apply uniq_app. split; auto. split; [cbn [uniq]; split; auto; apply Forall_forall|]; [intros u Hu; apply eqc_sym_false; [apply O| auto|apply N]; rewrite <- Sp; apply in_or_app; now right|].
    intros x y Hx [<-|Hy]; [apply N; rewrite <- Sp; apply in_or_app; now left|auto].
  Qed.
  (** the b-th place of the list with [t] in it *)
  Lemma ins_nth_b l t : dsc l -> b <= List.length l -> forall x y, nth_error l (b - 1) = Some x -> nth_error (ins_nth l (find_pos score ltb l (score t)) t) b = Some y -> ge x y.
  Proof.
    intros D L x y Ex Ey. destruct (@find_pos_ok l (score t) D) as (A & B & E). cbv zeta in *. set (i := find_pos score ltb l (score t)) in *. unfold ins_nth in Ey. assert (Li : List.length (firstn i l) = i) by (rewrite firstn_length; lia).
    destruct (Nat.lt_trichotomy i b) as [Lt|[Eq|Gt]].
    - rewrite nth_error_app2 in Ey by lia. rewrite Li in Ey. replace (b - i) with (S (b - 1 - i)) in Ey by lia. cbn [nth_error] in Ey. rewrite <- (firstn_skipn i l), nth_error_app2 in Ex by lia. rewrite Li in Ex. assert (x = y) by congruence. subst. apply lt_irr.
    - rewrite nth_error_app2 in Ey by lia. rewrite Li in Ey. replace (b - i) with 0 in Ey by lia. cbn in Ey. injection Ey as <-. apply B. rewrite <- (firstn_skipn i l), nth_error_app1 in Ex by lia. eapply nth_error_In; eauto.
    - rewrite nth_error_app1 in Ey by lia. assert (Ey' : nth_error l b = Some y) by (rewrite <- (firstn_skipn i l), nth_error_app1 by lia; auto). apply (dsc_nth D (i := b - 1) (j := b)); auto. lia.
  Qed.
  Lemma full_last (c : cell) sc : full_above score ltb b c sc = true -> b <= List.length (trees c) /\ exists l x, trees c = (l ++ [x])%list /\ ltb sc (score x) = true.
  Proof. unfold full_above. rewrite andb_true_iff, Nat.leb_le. intros [L H]. split; auto. destruct (rev (trees c)) as [|x r] eqn:E; [discriminate|]. apply rev_head_last in E. exists (rev r), x. auto. Qed.
  Lemma not_full (c : cell) sc l x : full_above score ltb b c sc = false -> b <= List.length (trees c) -> trees c = (l ++ [x])%list -> ltb sc (score x) = false.
  Proof. unfold full_above. intros H L E. apply Nat.leb_le in L. rewrite L in H. rewrite E, rev_app_distr in H. exact H. Qed.
  Lemma last_least l (x : T) u : dsc (l ++ [x]) -> In u (l ++ [x]) -> ge u x.
  Proof. intros D I. apply dsc_app in D. destruct D as (_ & _ & D). apply in_app_or in I. destruct I as [I|[<-|[]]]; [apply D; auto; now left|apply lt_irr]. Qed.
  Lemma split_last (l : list T) : 1 <= List.length l -> exists l' x, l = (l' ++ [x])%list.
  Proof. intro L. destruct (rev l) as [|x r] eqn:E; [apply (f_equal (@List.length T)) in E; rewrite rev_length in E; cbn in E; lia|]. apply rev_head_last in E. exists (rev r), x. auto. Qed.
  (** what is common to the two ways a tree gets in *)
  Lemma put_ok c off l' t a : cinv c off -> good (cat_of t) -> full_above score ltb b c (score t) = false ->
    (forall u, In u l' <-> In u (trees c) /\ eqc (cat_of u) (cat_of t) = false) -> dsc l' -> uniq l' ->
    (trees c = l' \/ exists l1 l2 old, trees c = (l1 ++ old :: l2)%list /\ l' = (l1 ++ l2)%list /\ eqc (cat_of old) (cat_of t) = true /\ ltb (score old) (score t) = true) ->
    exists c' a', apply_beam cat_of score ltb eqc b (Cell (ins_nth l' (find_pos score ltb l' (score t)) t) (m_set eqc (cat_of t) t (tmap c)) (minsc c)) a = Ok (c', a') /\ cinv c' (fun u => u = t \/ off u) /\
      incl (trees c') (t :: trees c) /\ (a' - Z.of_nat (List.length (trees c')) = a - Z.of_nat (S (List.length l')))%Z.
  Proof.
    intros I G NF Mem D' U' Way. assert (O' : okl l'). { apply Forall_forall. intros u Hu. apply Mem in Hu. assert (Oc := ci_ok I). rewrite Forall_forall in Oc. apply Oc, Hu. }
    set (L := ins_nth l' (find_pos score ltb l' (score t)) t).
    assert (Len : List.length (trees c) <= List.length L /\ List.length l' <= List.length (trees c)). { unfold L. rewrite ins_len. destruct Way as [->|(l1 & l2 & old & -> & -> & _)]; [lia|]. rewrite !app_length. cbn [List.length]. lia. }
    assert (Tlast : b <= List.length (trees c) -> forall x, nth_error (trees c) (b - 1) = Some x -> ltb (score t) (score x) = false).
    { intros Lb x Ex. destruct (@split_last (trees c)) as (m & z & Ez); [lia|]. assert (X := not_full NF Lb Ez). assert (Hz : ge z x). { apply (beam_all (ci_dsc I) (ci_beam I) Ex). rewrite Ez. apply in_or_app. right. now left. } unfold ChSpec.ge in Hz. eapply le_tr; [exact Hz|exact X]. }
    destruct (@apply_beam_ok (Cell L (m_set eqc (cat_of t) t (tmap c)) (minsc c)) (fun u => u = t \/ off u) a) as (c' & a' & E & I' & Inc & Cnt); cbn [trees tmap minsc].
    - apply Forall_forall. intros u Hu. apply ins_in in Hu. destruct Hu as [->|Hu]; auto. rewrite Forall_forall in O'. auto.
    - apply ins_dsc; auto.
    - apply ins_uniq; auto. intros u Hu. apply Mem, Hu.
    - apply (@mc_ext (t :: l')); [intro u; unfold L; rewrite ins_in; cbn [In]; intuition|]. apply (@mc_set (trees c)); auto. apply (ci_map I).
    - intros x y z i Ex Ey Gy Li Ez. destruct (Nat.eq_dec i b) as [->|Nb]; [congruence|]. assert (LL : i < List.length L) by (apply nth_error_Some; congruence).
      assert (Lb : b + 1 <= List.length l') by (unfold L in LL; rewrite ins_len in LL; lia).
      destruct (@nth_some _ (trees c) (b - 1)) as [s Es]; [lia|]. destruct (@nth_some _ l' (b - 1)) as [w Ew]; [lia|].
      assert (Hw : ge s w). { destruct Way as [Eq|(l1 & l2 & old & Eq & El & _)]; [assert (s = w) by congruence; subst; apply lt_irr|].
        destruct (Nat.lt_ge_cases (b - 1) (List.length l1)) as [L1|L1].
        - rewrite Eq, nth_error_app1 in Es by auto. rewrite El, nth_error_app1 in Ew by auto. assert (s = w) by congruence. subst; apply lt_irr.
        - apply (dsc_nth (ci_dsc I) (i := b - 1) (j := b)); auto; [lia|]. rewrite Eq, nth_error_app2 by lia. rewrite El, nth_error_app2 in Ew by lia. replace (b - List.length l1) with (S (b - 1 - List.length l1)) by lia. exact Ew. }
      assert (Hy : ge w y) by (apply (@ins_nth_b l' t D' ltac:(lia) w y Ew Ey)).
      assert (Hz : ge z s). { apply nth_error_In in Ez. apply ins_in in Ez. destruct Ez as [->|Ez]; [apply Tlast; auto; lia|]. apply Mem in Ez. apply (beam_all (ci_dsc I) (ci_beam I) Es). apply Ez. }
      unfold ChSpec.ge in *. eapply le_tr; [|exact Hz]. eapply le_tr; [|exact Hw]. eapply le_tr; [exact Gy|exact Hy].
    - intro Lt. destruct (ci_min I) as [[_ ->]|(x & Ex & _)]; auto. exfalso. assert (b - 1 < List.length (trees c)) by (apply nth_error_Some; congruence). lia.
    - intros o [->|Ho]; [split; auto; left; apply ins_in; now left|]. destruct (ci_kept I Ho) as [Go K]. split; auto.
      assert (Wit : forall u, In u (trees c) -> eqc (cat_of u) (cat_of o) = true -> ge u o -> kept L o).
      { intros u Iu Eu Gu. assert (Gcu : good (cat_of u)) by (assert (Oc := ci_ok I); rewrite Forall_forall in Oc; auto). destruct (eqc (cat_of u) (cat_of t)) eqn:Q.
        - right. left. exists t. split; [apply ins_in; now left|]. split; [apply (@eq_trans' _ (cat_of u)); auto|]. destruct Way as [Eq|(l1 & l2 & old & Eq & El & Eo & Lo)]; [rewrite Eq in Iu; apply Mem in Iu; destruct Iu; congruence|].
          assert (u = old). { rewrite Eq in Iu. apply in_app_or in Iu. assert (Oc := ci_ok I). rewrite Forall_forall in Oc. assert (NI : In u (l1 ++ l2) -> u = old). { intro X. rewrite <- El in X. apply Mem in X. destruct X. congruence. } destruct Iu as [Iu|[<-|Iu]]; auto; apply NI; apply in_or_app; auto. }
          subst u. unfold ChSpec.ge in *. eapply le_tr; [exact Gu|]. apply lt_le. exact Lo.
        - right. left. exists u. split; auto. apply ins_in. right. apply Mem. auto. }
      destruct K as [K|[(u & Iu & Eu & Gu)|[F1 F2]]].
      + apply (Wit o); auto. apply lt_irr.
      + apply (Wit u); auto.
      + right. right. split; [lia|]. intros u Hu. apply ins_in in Hu. destruct Hu as [->|Hu]; [|apply F2; apply Mem in Hu; apply Hu].
        destruct (@split_last (trees c)) as (m & z & Ez); [lia|]. assert (X := not_full NF F1 Ez). eapply lt_le_tr; [apply F2; rewrite Ez; apply in_or_app; right; now left|]. exact X.
    - exists c', a'. split; [exact E|]. split; [exact I'|]. split; [|cbn [trees] in Cnt; unfold L in Cnt; rewrite ins_len in Cnt; exact Cnt]. intros u Hu. apply Inc in Hu. cbn [trees] in Hu. apply ins_in in Hu. destruct Hu as [->|Hu]; [now left|]. right. apply Mem, Hu.
  Qed.
  Lemma add_one_ok c off t a : cinv c off -> good (cat_of t) -> full_above score ltb b c (score t) = false ->
    exists c' a', add_one cat_of score ltb eqc is_same b c a t = Ok (c', a') /\ cinv c' (fun u => u = t \/ off u) /\ incl (trees c') (t :: trees c) /\ (Z.of_nat (List.length (trees c')) - a' <= Z.of_nat (List.length (trees c)) - a)%Z.
  Proof.
    intros I G NF. unfold add_one. assert (MG := fun u => @m_get_ok (trees c) (tmap c) (cat_of t) u (ci_map I) G (ci_uniq I)).
    destruct (m_get eqc (cat_of t) (tmap c)) as [old|] eqn:E.
    - destruct (proj1 (MG old) eq_refl) as [Io Eo]. destruct (ltb (score old) (score t)) eqn:L.
      + destruct (@remove_old_ok (trees c) old (ci_dsc I) (ci_uniq I) (ci_ok I) Io) as (l1 & l2 & El & ->).
        assert (D := ci_dsc I). assert (U := ci_uniq I). assert (Oc := ci_ok I). rewrite El in D, U, Oc. apply dsc_app in D. destruct D as (D1 & [_ D2] & D3). apply uniq_app in U. destruct U as (U1 & [U2 U3] & U4). apply Forall_app in Oc. destruct Oc as [O1 O2]. inversion O2 as [|? ? Go O3]; subst. rewrite Forall_forall in O1, O3, U2.
        destruct (@put_ok c off (l1 ++ l2)%list t (a + 1)%Z I G NF) as (c' & a' & Ea & I' & Inc & Cnt).
        * intro u. rewrite El, !in_app_iff. cbn [In]. split.
          -- intros [H|H]; split; auto.
             ++ destruct (eqc (cat_of u) (cat_of t)) eqn:Q; auto. assert (X := U4 u old H (or_introl eq_refl)). rewrite (@eq_trans' (cat_of u) (cat_of t) (cat_of old)) in X; auto; discriminate.
             ++ destruct (eqc (cat_of u) (cat_of t)) eqn:Q; auto. assert (X := U2 u H). rewrite (@eq_trans' (cat_of old) (cat_of t) (cat_of u)) in X; auto; discriminate.
          -- intros [[H|[<-|H]] N]; auto. congruence.
        * apply dsc_app. split; auto. split; auto. intros; apply D3; cbn; auto.
        * apply uniq_app. split; auto. split; auto. intros; apply U4; cbn; auto.
        * right. exists l1, l2, old. auto.
        * exists c', a'. split; [exact Ea|]. split; auto. split; auto. rewrite El, app_length. cbn [List.length]. rewrite app_length in Cnt. lia.
      + exists c, a. split; auto. split; [|split; [intros x Hx; now right|lia]]. destruct I. constructor; auto. intros u [->|Hu]; auto. split; auto. right. left. exists old. auto.
    - destruct (@put_ok c off (trees c) t (a + 1)%Z I G NF) as (c' & a' & Ea & I' & Inc & Cnt); [| | |now left|].
      + intro u. split; [|intros [H _]; auto]. intro H. split; auto. eapply (@m_get_none (trees c)); eauto using ci_map, ci_uniq.
      + apply (ci_dsc I).
      + apply (ci_uniq I).
      + exists c', a'. split; [exact Ea|]. split; auto. split; auto. lia.
  Qed.
  Lemma cinv_ext c (off off' : T -> Prop) : (forall u, off' u -> off u) -> cinv c off -> cinv c off'.
  Proof. intros H [A1 A2 A3 A4 A5 A6 A7]. constructor; auto. Qed.
  Lemma add_sorted_ok : forall ts c off a, cinv c off -> okl ts -> dsc ts ->
    exists c' a', add_sorted cat_of score ltb eqc is_same b c a ts = Ok (c', a') /\ cinv c' (fun u => In u ts \/ off u) /\ incl (trees c') (ts ++ trees c) /\ (Z.of_nat (List.length (trees c')) - a' <= Z.of_nat (List.length (trees c)) - a)%Z.
  Proof.
    induction ts as [|t ts IH]; intros c off a I O D; cbn [add_sorted]. { exists c, a. split; auto. split; [|split; [apply incl_refl|lia]]. eapply cinv_ext; [|exact I]. intros u [[]|H]; auto. }
    inversion O as [|? ? O1 O2]; subst. destruct D as [D1 D2]. destruct (full_above score ltb b c (score t)) eqn:F.
    - exists c, a. split; auto. split; [|split; [intros x Hx; right; apply in_or_app; now right|lia]]. destruct (full_last F) as (L & l & x & El & Lx). destruct I as [A1 A2 A3 A4 A5 A6 A7]. constructor; auto.
      assert (All : forall u, In u (trees c) -> ltb (score t) (score u) = true). { intros u Hu. eapply lt_le_tr; [exact Lx|]. rewrite El in Hu, A2. apply (last_least A2 Hu). }
      intros u [Hu|Hu]; auto. rewrite Forall_forall in O, D1. split; [apply O; auto|]. right. right. split; auto. intros w Hw. destruct Hu as [<-|Hu]; auto. eapply le_lt_tr; [|apply All; exact Hw]. apply D1. exact Hu.
    - destruct (add_one_ok a I O1 F) as (c1 & a1 & E1 & I1 & Inc1 & C1). rewrite E1. cbn [bind fst snd]. destruct (IH c1 _ a1 I1 O2 D2) as (c2 & a2 & E2 & I2 & Inc2 & C2). exists c2, a2. split; auto. split; [|split; [|lia]].
      + eapply cinv_ext; [|exact I2]. cbn [In]. intros u [[<-|H]|H]; auto.
      + intros u Hu. apply Inc2 in Hu. apply in_app_or in Hu. destruct Hu as [Hu|Hu]; [right; apply in_or_app; auto|]. apply Inc1 in Hu. destruct Hu as [<-|Hu]; [now left|]. right. apply in_or_app. auto.
  Qed.
  Lemma ins_sorted_ok t l : dsc l -> dsc (ins_sorted score ltb t l) /\ forall u, In u (ins_sorted score ltb t l) <-> u = t \/ In u l.
  Proof.
    induction l as [|x l IH]; intro D; cbn [ins_sorted]; [cbn; split; auto; intuition|]. destruct D as [F D]. destruct (ltb (score x) (score t)) eqn:E.
    - split; [|intro u; cbn [In]; intuition]. cbn [dsc]. split; [|split; auto]. constructor; [apply lt_le; auto|]. rewrite Forall_forall in *. intros y Hy. unfold ChSpec.ge. eapply le_tr; [apply F; exact Hy|]. apply lt_le. exact E.
    - destruct (IH D) as [A B]. split; [|intro u; cbn [In]; rewrite B; intuition]. cbn [dsc]. split; auto. rewrite Forall_forall in *. intros y Hy. apply B in Hy. destruct Hy as [->|Hy]; auto.
  Qed.
  Lemma best_first_ok ts : dsc (best_first score ltb ts) /\ forall u, In u (best_first score ltb ts) <-> In u ts.
  Proof.
    unfold best_first. assert (X : forall ts l, dsc l -> dsc (fold_left (fun l t => ins_sorted score ltb t l) ts l) /\ forall u, In u (fold_left (fun l t => ins_sorted score ltb t l) ts l) <-> In u ts \/ In u l).
    { clear ts. induction ts as [|t ts IH]; intros l D; cbn [fold_left]; [split; auto; intro u; cbn; tauto|]. destruct (ins_sorted_ok t D) as [A B]. destruct (IH _ A) as [A' B']. split; auto. intro u. rewrite B', B. cbn [In]. intuition. }
    destruct (X ts [] I) as [A B]. split; auto. intro u. rewrite B. cbn. tauto.
  Qed.
  Lemma cell_add_ok c off ts : cinv c off -> okl ts -> exists c' a', cell_add cat_of score ltb eqc is_same b c ts = Ok (c', a') /\ cinv c' (fun u => In u ts \/ off u) /\ (forall u, In u (trees c') -> In u ts \/ In u (trees c)) /\
    (Z.of_nat (List.length (trees c')) - Z.of_nat (List.length (trees c)) <= a')%Z.
  Proof.
    intros I O. destruct (best_first_ok ts) as [D M]. unfold cell_add. destruct (@add_sorted_ok (best_first score ltb ts) c off 0%Z I) as (c' & a' & E & I' & Inc & Cn); auto. { rewrite Forall_forall in *. intros u Hu. apply O. now apply M. }
    exists c', a'. split; auto. split; [eapply cinv_ext; [|exact I']; intros u [H|H]; [left; now apply M|now right]|]. split; [|lia]. intros u Hu. apply Inc in Hu. apply in_app_or in Hu. destruct Hu as [Hu|Hu]; [left; now apply M|now right].
  Qed.
  Lemma cinv_empty : cinv (empty_cell ninf) (fun _ => False).
  Proof.
    constructor; cbn [trees tmap minsc empty_cell].
    - constructor.
    - exact I.
    - exact I.
    - split; [|split]; cbn; auto; intros; contradiction.
    - intros i t u _ H. destruct (b - 1); discriminate.
    - left. split; auto.
    - intros t [].
  Qed.
End Facts.
