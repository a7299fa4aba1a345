(** Lemmas about Bobcat's categories and rules (C64, C65). *)
From Coq Require Import Ascii Lia.
From Verif Require Import PyBase BobModel BobSpec.
Open Scope string_scope. Set Implicit Arguments. Unset Strict Implicit.

Lemma atomk_eqb_eq a b : atomk_eqb a b = true <-> a = b.
Proof. split; [|intros ->; unfold atomk_eqb; apply Nat.eqb_refl]. destruct a, b; cbn; intros H; try discriminate; reflexivity. Qed.
Lemma atomk_eqb_refl a : atomk_eqb a a = true.
Proof. now apply atomk_eqb_eq. Qed.
Lemma is_free_iff f : is_free f = true <-> free f.
Proof. unfold is_free, free. rewrite orb_true_iff, !String.eqb_eq. tauto. Qed.

(** ** C64 *)
Section H.
  Variables (ha : atomk -> string -> Z) (hs : Z -> Z -> ascii -> Z).
  Lemma free_hash f g : free f -> free g -> (if (f =? "X")%string then "" else f) = (if (g =? "X")%string then "" else g).
  Proof. intros [-> | ->] [-> | ->]; reflexivity. Qed.
  Lemma same_hash a b : same a b -> c_hash ha hs a = c_hash ha hs b.
  Proof.
    induction 1 as [a f g v rel v' rel' H | d r x r' x' v rel tr v' rel' tr' H1 IH1 H2 IH2]; cbn [c_hash].
    - destruct H as [-> | (-> & F & G)]; [reflexivity|]. now rewrite (free_hash F G).
    - now rewrite IH1, IH2.
  Qed.
  Lemma equals_iff a b : proper a -> (c_equals ha hs a b = true <-> same a b).
  Proof.
    intros Pa; revert b; induction Pa as [k f v rel N | d r x v rel tr D Pr IHr Px IHx]; intros b.
    - split.
      + cbn [c_equals]. destruct (negb _); [discriminate|]. rewrite andb_true_iff, atomk_eqb_eq. intros [E H].
        destruct b as [k' g v' rel' | d' r' x' v' rel' tr']; cbn [c_atom c_feat] in *; [subst k'|congruence].
        constructor. rewrite orb_true_iff, String.eqb_eq, !andb_true_iff, atomk_eqb_eq, !is_free_iff in H. tauto.
      + intros H. pose proof (same_hash H) as E. unfold c_equals. rewrite E, Z.eqb_refl. cbn [negb].
        inversion H as [a0 f0 g v0 rel0 v' rel' C|]; subst. cbn [c_atom c_feat]. rewrite atomk_eqb_refl. cbn [andb].
        rewrite orb_true_iff, String.eqb_eq, !andb_true_iff, atomk_eqb_eq, !is_free_iff. tauto.
    - split.
      + cbn [c_equals]. destruct (negb _); [discriminate|]. destruct b as [|d' r' x' v' rel' tr']; [discriminate|].
        rewrite !andb_true_iff, IHr, IHx, Ascii.eqb_eq. intros [[-> H1] H2]. now constructor.
      + intros H. pose proof (same_hash H) as E. cbn [c_equals]. rewrite E, Z.eqb_refl. cbn [negb].
        inversion H; subst. rewrite Ascii.eqb_refl. cbn [andb]. apply andb_true_iff. split; [now apply IHr | now apply IHx].
  Qed.
End H.
Lemma same_refl a : same a a.
Proof. induction a; constructor; auto. Qed.
Lemma same_sym a b : same a b -> same b a.
Proof. induction 1; constructor; auto. destruct H as [-> | (-> & F & G)]; auto. Qed.
Lemma same_trans a b c : same a b -> same b c -> same a c.
Proof.
  intros H; revert c; induction H as [a f g v rel v' rel' H | d r x r' x' v rel tr v' rel' tr' H1 IH1 H2 IH2]; intros c Hc; inversion Hc; subst; constructor; auto.
  match goal with D : g = _ \/ _ |- _ => destruct H as [-> | (-> & F & G)]; destruct D as [<- | (E & F' & G')]; auto end.
Qed.
Lemma same_proper a b : same a b -> proper a -> proper b.
Proof. induction 1; intros P; inversion P; subst; constructor; auto. Qed.
Lemma matches_iff a b : proper a -> (c_matches a b = true <-> fills a b).
Proof.
  intros Pa; revert b; induction Pa as [k f v rel N | d r x v rel tr D Pr IHr Px IHx]; intros b; cbn [c_matches].
  - rewrite andb_true_iff, orb_true_iff, atomk_eqb_eq, !String.eqb_eq. split.
    + intros [E H]. destruct b as [k' g v' rel' | d' r' x' v' rel' tr']; cbn [c_atom c_feat] in *; [subst k'; now constructor|congruence].
    + intros H; inversion H; subst; cbn; auto.
  - destruct b as [|d' r' x' v' rel' tr']; [split; [discriminate | intros H; inversion H]|].
    rewrite !andb_true_iff, IHr, IHx, Ascii.eqb_eq. split; [intros [[-> H1] H2]; now constructor | intros H; inversion H; subst; auto].
Qed.
Lemma find_first A (p : A -> bool) l x : find p l = Some x <-> exists u w, l = (u ++ x :: w)%list /\ p x = true /\ forall y, In y u -> p y = false.
Proof.
  induction l as [|a l IH]; cbn [find].
  - split; [discriminate|]. intros (u & w & E & _). destruct u; discriminate.
  - destruct (p a) eqn:Pa; [split|rewrite IH; split].
    + intros [= ->]. exists [], l. split; [reflexivity|]. split; [exact Pa|]. intros y [].
    + intros (u & w & E & Px & U). destruct u as [|b u]; cbn in E; [now inversion E|]. inversion E; subst b. rewrite (U a) in Pa; [discriminate | now left].
    + intros (u & w & -> & Px & U). exists (a :: u), w. split; [reflexivity|]. split; [exact Px|]. intros y [-> | Hy]; auto.
    + intros (u & w & E & Px & U). destruct u as [|b u]; cbn in E; inversion E; subst; [congruence|]. exists u, w. split; [reflexivity|]. split; [exact Px|]. intros y Hy; apply U; now right.
Qed.
Lemma find_none_iff A (p : A -> bool) l : find p l = None <-> forall x, In x l -> p x = false.
Proof. split; [intros H x Hx; now apply (find_none p l) | induction l as [|a l IH]; intros H; cbn; [reflexivity|rewrite (H a) by (now left); apply IH; intros x Hx; apply H; now right]]. Qed.

(** ** Unification *)
Lemma upd_same A (m : nat -> option A) k v : upd m k v k = Some v.
Proof. unfold upd. now rewrite Nat.eqb_refl. Qed.
Lemma upd_other A (m : nat -> option A) k v i : i <> k -> upd m k v i = m i.
Proof. intros N. unfold upd. destruct (i =? k)%nat eqn:E; [apply Nat.eqb_eq in E; contradiction | reflexivity]. Qed.
Section U.
  Variables (order : list nat -> list nat) (lt rt : ptree).
  Hypothesis order_ok : forall l v, In v (order l) <-> In v l.
  Variable F : nat -> nat -> Prop.
  Definition inv (u : ust) : Prop :=
    (forall a n, u_tl u a = Some n -> u_ol u n = Some a /\ n < u_num u) /\
    (forall b n, u_tr u b = Some n -> u_or u n = Some b /\ n < u_num u) /\
    (forall a b n, u_tl u a = Some n -> u_tr u b = Some n -> F a b /\ ~ (filled lt a /\ filled rt b)).
  Lemma inv_init : inv u_init.
  Proof. repeat split; cbn; discriminate. Qed.
  Lemma inv_set_feat f u : inv u -> inv (set_feat f u).
  Proof. intros H; exact H. Qed.
  Lemma unify_var_ok l r u u' : F l r -> inv u -> unify_var lt rt l r u = Some u' -> inv u' /\ u_feat u' = u_feat u.
  Proof.
    intros Hf I. unfold unify_var.
    destruct (u_tl u l) eqn:El; [intros [= <-]; auto|]. destruct (u_tr u r) eqn:Er; [intros [= <-]; auto|].
    destruct (match p_vars lt l with Some _ => _ | None => _ end) eqn:B; [discriminate|]. intros [= <-]. split; [|reflexivity].
    destruct I as (A & Bt & C). split; [|split]; cbn [u_tl u_tr u_ol u_or u_num].
    - intros a n H. destruct (Nat.eq_dec a l) as [-> | N].
      + rewrite upd_same in H. injection H as <-. rewrite upd_same. split; [reflexivity | lia].
      + rewrite (upd_other _ _ N) in H. destruct (A _ _ H) as [O L]. split; [rewrite upd_other by lia; exact O | lia].
    - intros a n H. destruct (Nat.eq_dec a r) as [-> | N].
      + rewrite upd_same in H. injection H as <-. rewrite upd_same. split; [reflexivity | lia].
      + rewrite (upd_other _ _ N) in H. destruct (Bt _ _ H) as [O L]. split; [rewrite upd_other by lia; exact O | lia].
    - intros a b n Ha Hb. destruct (Nat.eq_dec a l) as [-> | Na], (Nat.eq_dec b r) as [-> | Nb].
      + split; [exact Hf|]. intros [[f1 E1] [f2 E2]]. rewrite E1, E2 in B. discriminate.
      + rewrite upd_same in Ha. injection Ha as <-. rewrite (upd_other _ _ Nb) in Hb. destruct (Bt _ _ Hb). lia.
      + rewrite upd_same in Hb. injection Hb as <-. rewrite (upd_other _ _ Na) in Ha. destruct (A _ _ Ha). lia.
      + rewrite (upd_other _ _ Na) in Ha. rewrite (upd_other _ _ Nb) in Hb. exact (C _ _ _ Ha Hb).
  Qed.
  Lemma last_app_d A (l1 l2 : list A) d : last (l1 ++ l2) d = last l2 (last l1 d).
  Proof.
    revert d; induction l1 as [|a l1 IH]; intros d; [reflexivity|]. cbn [app]. destruct l1 as [|b l1].
    - cbn [app last]. destruct l2 as [|c l2]; [reflexivity|]. clear. change (last (a :: c :: l2) d) with (last (c :: l2) d).
      revert c; induction l2 as [|e l2 IH]; intros c; [reflexivity|]. exact (IH e).
    - change (last (a :: (b :: l1) ++ l2)%list d) with (last ((b :: l1) ++ l2)%list d). rewrite IH. reflexivity.
  Qed.
  Lemma unify_rec_ok l : proper l -> forall r u u', proper r -> (forall a b, facing l r a b -> F a b) -> inv u ->
    unify_rec lt rt l r u = Some u' -> unifiable l r /\ inv u' /\ u_feat u' = last (bindings l r) (u_feat u).
  Proof.
    induction 1 as [k f v rel N | d lr lx v rel tr D Pr IHr Px IHx]; intros r u u' Pp Hf I; cbn [unify_rec].
    - destruct (negb (atomk_eqb k (c_atom r))) eqn:E; [discriminate|]. apply negb_false_iff, atomk_eqb_eq in E.
      destruct r as [k' g v' rel'|]; cbn [c_atom] in E; [subst k'|congruence]. cbn [c_feat c_var].
      assert (Hv : F v v') by (apply Hf; apply (fc_here (At k f v rel) (At k g v' rel'))).
      destruct (atomk_eqb k AS) eqn:ES.
      + apply atomk_eqb_eq in ES. subst k. cbn [bindings]. destruct (f =? "X")%string eqn:Ef; [|destruct (g =? "X")%string eqn:Eg].
        * intros H. apply String.eqb_eq in Ef. destruct (unify_var_ok Hv (@inv_set_feat g u I) H) as [I' E']. split; [constructor; auto|]. split; [exact I'|]. rewrite E'. reflexivity.
        * intros H. apply String.eqb_eq in Eg. destruct (unify_var_ok Hv (@inv_set_feat f u I) H) as [I' E']. split; [constructor; auto|]. split; [exact I'|]. rewrite E'. reflexivity.
        * destruct (f =? g)%string eqn:Efg; [|discriminate]. cbn [negb]. apply String.eqb_eq in Efg. intros H. destruct (unify_var_ok Hv I H) as [I' E']. split; [constructor; auto|]. split; [exact I' | exact E'].
      + intros H. destruct (unify_var_ok Hv I H) as [I' E'].
        assert (NS : k <> AS) by (intros ->; discriminate ES).
        split; [constructor; congruence|]. split; [exact I'|]. rewrite E'. destruct k; try reflexivity; congruence.
    - destruct r as [|d' rr rx v' rel' tr']; [discriminate|]. destruct (Ascii.eqb d d') eqn:E; [|discriminate]. apply Ascii.eqb_eq in E. subst d'.
      inversion Pp; subst.
      destruct (unify_rec lt rt lr rr u) as [u1|] eqn:E1; [|discriminate]. destruct (unify_rec lt rt lx rx u1) as [u2|] eqn:E2; [|discriminate]. intros H.
      assert (Hr : forall a b, facing lr rr a b -> F a b) by (intros a b Hab; apply Hf; now constructor).
      assert (Hx : forall a b, facing lx rx a b -> F a b) by (intros a b Hab; apply Hf; now apply fc_arg).
      match goal with A : proper rr, B : proper rx |- _ =>
        destruct (IHr rr u u1 A Hr I E1) as (U1 & I1 & F1); destruct (IHx rx u1 u2 B Hx I1 E2) as (U2 & I2 & F2) end.
      assert (Hv : F v v') by (apply Hf; apply (fc_here (Sl d lr lx v rel tr) (Sl d rr rx v' rel' tr'))).
      destruct (unify_var_ok Hv I2 H) as [I3 F3]. split; [now constructor|]. split; [exact I3|].
      cbn [bindings]. rewrite F3, F2, F1, last_app_d. reflexivity.
  Qed.
  Lemma add_left_ok vs : forall u, inv u ->
    let u' := fold_left (fun u v => match u_tl u v with Some _ => u | None => U (u_feat u) (S (u_num u)) (upd (u_tl u) v (u_num u)) (u_tr u) (upd (u_ol u) (u_num u) v) (u_or u) end) vs u in
    inv u' /\ u_feat u' = u_feat u /\ u_tr u' = u_tr u /\ (forall v n, u_tl u v = Some n -> u_tl u' v = Some n) /\ (forall v, In v vs -> u_tl u' v <> None).
  Proof.
    induction vs as [|v vs IH]; intros u I; cbn [fold_left].
    - split; [exact I|]. split; [reflexivity|]. split; [reflexivity|]. split; [auto|]. intros w [].
    - destruct (u_tl u v) eqn:E.
      + destruct (IH u I) as (I' & F1 & R & M & A). cbv zeta in *. split; [exact I'|]. split; [exact F1|]. split; [exact R|]. split; [exact M|].
        intros w [<- | Hw]; [rewrite (M _ _ E); discriminate | now apply A].
      + set (u1 := U _ _ _ _ _ _). assert (I1 : inv u1).
        { destruct I as (A & Bt & C). split; [|split]; cbn [u1 u_tl u_tr u_ol u_or u_num].
          - intros a n H. destruct (Nat.eq_dec a v) as [-> | N].
            + rewrite upd_same in H. injection H as <-. rewrite upd_same. split; [reflexivity | lia].
            + rewrite (upd_other _ _ N) in H. destruct (A _ _ H) as [O L]. split; [rewrite upd_other by lia; exact O | lia].
          - intros b n H. destruct (Bt _ _ H). split; [assumption | lia].
          - intros a b n Ha Hb. destruct (Nat.eq_dec a v) as [-> | N].
            + rewrite upd_same in Ha. injection Ha as <-. destruct (Bt _ _ Hb). lia.
            + rewrite (upd_other _ _ N) in Ha. exact (C _ _ _ Ha Hb). }
        destruct (IH u1 I1) as (I' & F1 & R & M & A). cbv zeta in *. split; [exact I'|]. split; [exact F1|]. split; [exact R|].
        assert (M1 : forall w n, u_tl u w = Some n -> u_tl u1 w = Some n).
        { intros w n Hw. cbn [u1 u_tl]. rewrite upd_other; [exact Hw|]. intros ->. congruence. }
        split; [auto|]. intros w [<- | Hw]; [|now apply A]. rewrite (M v (u_num u)); [discriminate|]. cbn [u1 u_tl]. apply upd_same.
  Qed.
  Lemma add_right_ok vs : forall u, inv u ->
    let u' := fold_left (fun u v => match u_tr u v with Some _ => u | None => U (u_feat u) (S (u_num u)) (u_tl u) (upd (u_tr u) v (u_num u)) (u_ol u) (upd (u_or u) (u_num u) v) end) vs u in
    inv u' /\ u_feat u' = u_feat u /\ u_tl u' = u_tl u /\ (forall v n, u_tr u v = Some n -> u_tr u' v = Some n) /\ (forall v, In v vs -> u_tr u' v <> None).
  Proof.
    induction vs as [|v vs IH]; intros u I; cbn [fold_left].
    - split; [exact I|]. split; [reflexivity|]. split; [reflexivity|]. split; [auto|]. intros w [].
    - destruct (u_tr u v) eqn:E.
      + destruct (IH u I) as (I' & F1 & R & M & A). cbv zeta in *. split; [exact I'|]. split; [exact F1|]. split; [exact R|]. split; [exact M|].
        intros w [<- | Hw]; [rewrite (M _ _ E); discriminate | now apply A].
      + set (u1 := U _ _ _ _ _ _). assert (I1 : inv u1).
        { destruct I as (A & Bt & C). split; [|split]; cbn [u1 u_tl u_tr u_ol u_or u_num].
          - intros b n H. destruct (A _ _ H). split; [assumption | lia].
          - intros a n H. destruct (Nat.eq_dec a v) as [-> | N].
            + rewrite upd_same in H. injection H as <-. rewrite upd_same. split; [reflexivity | lia].
            + rewrite (upd_other _ _ N) in H. destruct (Bt _ _ H) as [O L]. split; [rewrite upd_other by lia; exact O | lia].
          - intros a b n Ha Hb. destruct (Nat.eq_dec b v) as [-> | N].
            + rewrite upd_same in Hb. injection Hb as <-. destruct (A _ _ Ha). lia.
            + rewrite (upd_other _ _ N) in Hb. exact (C _ _ _ Ha Hb). }
        destruct (IH u1 I1) as (I' & F1 & R & M & A). cbv zeta in *. split; [exact I'|]. split; [exact F1|]. split; [exact R|].
        assert (M1 : forall w n, u_tr u w = Some n -> u_tr u1 w = Some n).
        { intros w n Hw. cbn [u1 u_tr]. rewrite upd_other; [exact Hw|]. intros ->. congruence. }
        split; [auto|]. intros w [<- | Hw]; [|now apply A]. rewrite (M v (u_num u)); [discriminate|]. cbn [u1 u_tr]. apply upd_same.
  Qed.
  Lemma unify_ok (fwd : bool) (arg res yl yr : cat) u : yl = (if fwd then res else arg) -> yr = (if fwd then arg else res) -> proper yl -> proper yr -> (forall a b, facing yl yr a b -> F a b) ->
    unify order lt rt fwd arg res = Some u ->
    unifiable yl yr /\ inv u /\ u_feat u = last (bindings yl yr) "" /\
    (forall v, In v (vars (p_cat lt)) -> u_tl u v <> None) /\ (forall v, In v (vars (p_cat rt)) -> u_tr u v <> None).
  Proof.
    intros -> -> Pl Pr Hf. unfold unify. destruct fwd.
    - destruct (unify_rec lt rt res arg u_init) as [u0|] eqn:E; [|discriminate]. intros [= <-].
      destruct (unify_rec_ok Pl Pr Hf inv_init E) as (U & I & Fe). split; [exact U|].
      destruct (add_right_ok (order (vars (p_cat rt))) I) as (I1 & F1 & R1 & M1 & A1).
      destruct (add_left_ok (order (vars (p_cat lt))) I1) as (I2 & F2 & R2 & M2 & A2). cbv zeta in *.
      unfold add_left, add_right. split; [exact I2|]. split; [rewrite F2, F1; exact Fe|]. split.
      + intros v Hv. apply A2. now apply order_ok.
      + intros v Hv. rewrite R2. apply A1. now apply order_ok.
    - destruct (unify_rec lt rt arg res u_init) as [u0|] eqn:E; [|discriminate]. intros [= <-].
      destruct (unify_rec_ok Pl Pr Hf inv_init E) as (U & I & Fe). split; [exact U|].
      destruct (add_left_ok (order (vars (p_cat lt))) I) as (I1 & F1 & R1 & M1 & A1).
      destruct (add_right_ok (order (vars (p_cat rt))) I1) as (I2 & F2 & R2 & M2 & A2). cbv zeta in *.
      unfold add_left, add_right. split; [exact I2|]. split; [rewrite F2, F1; exact Fe|]. split.
      + intros v Hv. rewrite R2. apply A1. now apply order_ok.
      + intros v Hv. apply A2. now apply order_ok.
  Qed.
End U.

(** the numbering can be read backwards *)
Definition inv2 (u : ust) : Prop := 1 <= u_num u /\ (forall n a, u_ol u n = Some a <-> u_tl u a = Some n) /\ (forall n a, u_or u n = Some a <-> u_tr u a = Some n) /\
  (forall n a, u_tl u a = Some n -> 1 <= n < u_num u) /\ (forall n a, u_tr u a = Some n -> 1 <= n < u_num u).
Lemma inv2_one (num v : nat) (tl ol : nat -> option nat) : 1 <= num -> (forall n a, ol n = Some a <-> tl a = Some n) -> (forall n a, tl a = Some n -> 1 <= n < num) -> tl v = None ->
  (forall n a, upd ol num v n = Some a <-> upd tl v num a = Some n) /\ (forall n a, upd tl v num a = Some n -> 1 <= n < S num).
Proof.
  intros N R B E. assert (O : ol num = None). { destruct (ol num) as [a|] eqn:Eo; [|reflexivity]. apply R in Eo. apply B in Eo. lia. }
  split; intros n a.
  - destruct (Nat.eq_dec n num) as [-> | Nn], (Nat.eq_dec a v) as [-> | Na].
    + rewrite !upd_same. split; reflexivity.
    + rewrite upd_same, (upd_other _ _ Na). split; [intros [= ->]; congruence | intros H; apply B in H; lia].
    + rewrite upd_same, (upd_other _ _ Nn). split; [intros H; apply R in H; congruence | intros [= ->]; congruence].
    + rewrite (upd_other _ _ Nn), (upd_other _ _ Na). apply R.
  - destruct (Nat.eq_dec a v) as [-> | Na]; [rewrite upd_same; intros [= <-]; lia | rewrite (upd_other _ _ Na); intros H; apply B in H; lia].
Qed.
Lemma inv2_init : inv2 u_init.
Proof. split; [cbn; lia|]. split; [|split; [|split]]; cbn; intros; try (split; intros; discriminate); discriminate. Qed.
Lemma inv2_var lt rt l r u u' : inv2 u -> unify_var lt rt l r u = Some u' -> inv2 u'.
Proof.
  intros (N & L & R & Bl & Br). unfold unify_var.
  destruct (u_tl u l) eqn:El; [intros [= <-]; repeat (split; try assumption)|]. destruct (u_tr u r) eqn:Er; [intros [= <-]; repeat (split; try assumption)|].
  destruct (match p_vars lt l with Some _ => _ | None => _ end) eqn:B; [discriminate|]. intros [= <-].
  destruct (inv2_one N L Bl El) as [A1 A2]. destruct (inv2_one N R Br Er) as [A3 A4]. split; [cbn; lia|]. cbn [u_tl u_tr u_ol u_or u_num]. auto.
Qed.
Lemma inv2_rec lt rt l : forall r u u', inv2 u -> unify_rec lt rt l r u = Some u' -> inv2 u'.
Proof.
  induction l as [a f v rel | d lr IHr lx IHx v rel tr]; intros r u u' H; cbn [unify_rec].
  - assert (H' : forall g, inv2 (set_feat g u)) by (intros g; exact H).
    destruct (negb _); [discriminate|]. destruct (atomk_eqb a AS); [|now apply inv2_var]. destruct (f =? "X")%string; [now apply inv2_var|]. destruct (c_feat r =? "X")%string; [now apply inv2_var|]. destruct (negb _); [discriminate|]. now apply inv2_var.
  - destruct r as [|d' rr rx v' rel' tr']; [discriminate|]. destruct (Ascii.eqb d d'); [|discriminate]. destruct (unify_rec lt rt lr rr u) as [u1|] eqn:E1; [|discriminate]. destruct (unify_rec lt rt lx rx u1) as [u2|] eqn:E2; [|discriminate].
    apply inv2_var. exact (IHx _ _ _ (IHr _ _ _ H E1) E2).
Qed.
Lemma inv2_left vs : forall u, inv2 u ->
  inv2 (fold_left (fun u v => match u_tl u v with Some _ => u | None => U (u_feat u) (S (u_num u)) (upd (u_tl u) v (u_num u)) (u_tr u) (upd (u_ol u) (u_num u) v) (u_or u) end) vs u).
Proof.
  induction vs as [|v vs IH]; intros u H; cbn [fold_left]; [exact H|]. apply IH. destruct (u_tl u v) eqn:E; [exact H|]. destruct H as (N & L & R & Bl & Br).
  destruct (inv2_one N L Bl E) as [A1 A2]. split; [cbn; lia|]. cbn [u_tl u_tr u_ol u_or u_num]. split; [exact A1|]. split; [exact R|]. split; [exact A2|]. intros n a K. apply Br in K. lia.
Qed.
Lemma inv2_right vs : forall u, inv2 u ->
  inv2 (fold_left (fun u v => match u_tr u v with Some _ => u | None => U (u_feat u) (S (u_num u)) (u_tl u) (upd (u_tr u) v (u_num u)) (u_ol u) (upd (u_or u) (u_num u) v) end) vs u).
Proof.
  induction vs as [|v vs IH]; intros u H; cbn [fold_left]; [exact H|]. apply IH. destruct (u_tr u v) eqn:E; [exact H|]. destruct H as (N & L & R & Bl & Br).
  destruct (inv2_one N R Br E) as [A1 A2]. split; [cbn; lia|]. cbn [u_tl u_tr u_ol u_or u_num]. split; [exact L|]. split; [exact A1|]. split; [|exact A2]. intros n a K. apply Bl in K. lia.
Qed.
Lemma inv2_unify order lt rt (f : bool) arg r u : unify order lt rt f arg r = Some u -> inv2 u.
Proof.
  unfold unify. destruct f.
  - destruct (unify_rec lt rt r arg u_init) eqn:E; [|discriminate]. intros [= <-]. apply inv2_left, inv2_right. exact (inv2_rec inv2_init E).
  - destruct (unify_rec lt rt arg r u_init) eqn:E; [|discriminate]. intros [= <-]. apply inv2_right, inv2_left. exact (inv2_rec inv2_init E).
Qed.
Lemma heads_ok lt rt ru c u : inv2 u -> heads_kept (u_tl u) (u_tr u) lt rt (binary lt rt ru c u).
Proof.
  intros (N & L & R & Bl & Br). unfold heads_kept, fillers. cbn [p_vars binary].
  assert (In_ : forall n, 1 <= n < u_num u -> ((1 <=? n) && (n <? u_num u))%nat = true) by (intros n H; apply andb_true_iff; rewrite Nat.leb_le, Nat.ltb_lt; lia).
  split; [|split; [|split]].
  - intros n f b. destruct ((1 <=? n) && (n <? u_num u))%nat; [|discriminate]. destruct (match u_ol u n with Some v => p_vars lt v | None => None end) as [[f1 b1]|], (match u_or u n with Some v => p_vars rt v | None => None end) as [[f2 b2]|]; congruence.
  - intros a n Ha Hb. rewrite (In_ n (Bl _ _ Ha)). rewrite (proj2 (L n a) Ha). destruct (u_or u n) as [b|] eqn:E; [apply R in E; destruct (Hb b E)|]. destruct (p_vars lt a) as [[f1 b1]|]; reflexivity.
  - intros b n Hb Ha. rewrite (In_ n (Br _ _ Hb)). rewrite (proj2 (R n b) Hb). destruct (u_ol u n) as [a|] eqn:E; [apply L in E; destruct (Ha a E)|]. destruct (p_vars rt b) as [[f1 b1]|]; reflexivity.
  - intros a b n Ha Hb. rewrite (In_ n (Br _ _ Hb)). rewrite (proj2 (R n b) Hb), (proj2 (L n a) Ha). destruct (p_vars lt a) as [[f1 b1]|], (p_vars rt b) as [[f2 b2]|]; try reflexivity. now rewrite app_nil_r.
Qed.
Lemma translate_ok m g c c' : translate m g c = Ok c' -> renamed m g c c'.
Proof.
  revert c'; induction c as [a f v rel | d r IHr x IHx v rel tr]; intros c'; cbn [translate].
  - destruct (m v) as [v'|] eqn:E; [|discriminate]. intros [= <-].
    replace (if (f =? "X")%string && negb (g =? "")%string then g else f) with (inst g f); [now constructor|].
    unfold inst. destruct (f =? "X")%string, (g =? "")%string; reflexivity.
  - destruct (m v) as [v'|] eqn:E; [|discriminate]. destruct (translate m g r) as [r'|] eqn:Er; [|discriminate]. destruct (translate m g x) as [x'|] eqn:Ex; [|discriminate].
    cbn. intros [= <-]. constructor; auto.
Qed.
Lemma translate_total m g c : (forall v, In v (vars c) -> m v <> None) -> marked_up c -> exists c', translate m g c = Ok c'.
Proof.
  assert (add : forall l1 l2 v, In v (fold_right addv l2 l1) <-> In v l1 \/ In v l2).
  { induction l1 as [|a l1 IH]; intros l2 v; cbn [fold_right In]; [tauto|]. unfold addv at 1.
    destruct (existsb (Nat.eqb a) (fold_right addv l2 l1)) eqn:E; [|cbn [In]; rewrite IH; tauto].
    rewrite IH. apply existsb_exists in E. destruct E as (w & Hw & Ew). apply Nat.eqb_eq in Ew. subst w. rewrite IH in Hw. split; [tauto|]. intros [[-> | H] | H]; tauto. }
  assert (addin : forall v l, In v (addv v l)).
  { intros v l. unfold addv. destruct (existsb (Nat.eqb v) l) eqn:E; [|now left]. apply existsb_exists in E. destruct E as (w & Hw & Ew). apply Nat.eqb_eq in Ew. now subst w. }
  assert (addin' : forall v w l, In v l -> In v (addv w l)).
  { intros v w l H. unfold addv. destruct (existsb _ _); [exact H | now right]. }
  induction c as [a f v rel | d r IHr x IHx v rel tr]; intros H M; cbn [translate vars marked_up] in *.
  - destruct (v =? 0)%nat eqn:E; [apply Nat.eqb_eq in E; contradiction|]. destruct (m v) as [v'|] eqn:Ev; [eauto|]. exfalso. apply (H v); [now left | exact Ev].
  - destruct M as (N & Mr & Mx). destruct (v =? 0)%nat eqn:E; [apply Nat.eqb_eq in E; contradiction|].
    destruct (m v) as [v'|] eqn:Ev; [|exfalso; apply (H v); [apply addin | exact Ev]].
    destruct IHr as [r' Er]; [|exact Mr|].
    { intros w Hw. apply H. apply addin'. rewrite add. now right. }
    destruct IHx as [x' Ex]; [|exact Mx|].
    { intros w Hw. apply H. apply addin'. rewrite add. now left. }
    rewrite Er, Ex. cbn. eauto.
Qed.
(** ** The rules *)
Section R.
  Variables (order : list nat -> list nat) (lt rt : ptree).
  Hypothesis order_ok : forall l v, In v (order l) <-> In v l.
  Hypothesis Pl : proper (p_cat lt). Hypothesis Pr : proper (p_cat rt).
  Lemma combined_of (fwd : bool) (arg res yl yr : cat) u t : yl = (if fwd then res else arg) -> yr = (if fwd then arg else res) -> proper yl -> proper yr ->
    unify order lt rt fwd arg res = Some u -> (exists ru c, t = binary lt rt ru c u) -> prescribed (u_tl u) (u_tr u) (u_feat u) (p_rule t) (p_cat lt) (p_cat rt) yl yr (p_cat t) -> combined lt rt t.
  Proof.
    intros El Er Ql Qr H (ru & c & Et) P. destruct (@unify_ok order lt rt order_ok (facing yl yr) fwd arg res yl yr u El Er Ql Qr (fun a b x => x) H) as (U & (A & B & C) & Fe & _ & _).
    exists (u_tl u), (u_tr u), (u_feat u), yl, yr. split; [exact P|]. split; [exact U|]. split; [exact Fe|]. split; [|split].
    - intros a b n Ha Hb. destruct (A _ _ Ha) as [Oa _]. destruct (A _ _ Hb) as [Ob _]. congruence.
    - intros a b n Ha Hb. destruct (B _ _ Ha) as [Oa _]. destruct (B _ _ Hb) as [Ob _]. congruence.
    - split; [exact C|]. rewrite Et. apply heads_ok. exact (inv2_unify H).
  Qed.
  Lemma need_res c r : need (c_res c) = Ok r -> exists d x v rel tr, c = Sl d r x v rel tr.
  Proof. destruct c as [|d r' x v rel tr]; cbn; [discriminate|]. intros [= ->]. eauto 6. Qed.
  Lemma need_arg c x : need (c_arg c) = Ok x -> exists d r v rel tr, c = Sl d r x v rel tr.
  Proof. destruct c as [|d r x' v rel tr]; cbn; [discriminate|]. intros [= ->]. eauto 6. Qed.
  Lemma outer_case u v : v = c_var (p_cat lt) -> u_tl u v = Some (outer_var lt u) \/ (u_tl u v = None /\ outer_var lt u = 0).
  Proof. intros ->. unfold outer_var. destruct (u_tl u _); auto. Qed.
  Lemma bind_ok A B (e : res A) (f : A -> res B) b : (do x <- e; f x) = Ok b -> exists a, e = Ok a /\ f a = Ok b.
  Proof. destruct e as [a|]; cbn; [eauto|discriminate]. Qed.
  Ltac bk H a E := apply bind_ok in H; destruct H as (a & E & H).
  Lemma application_ok (f : bool) t : (if f then fwd (p_cat lt) else bwd (p_cat rt)) = true -> application order lt rt f = Ok (Some t) -> combined lt rt t /\ (p_rule t = RFA \/ p_rule t = RBA).
  Proof.
    intros D H. unfold application in H. cbv zeta in H. bk H ra Era. apply need_arg in Era. destruct Era as (d & X & v & rel & tr & Ec).
    destruct (unify _ _ _ _ _ _) as [u|] eqn:EU; [|discriminate]. bk H rr Erx. bk H c Etr. injection H as <-.
    rewrite Ec in Erx. cbn in Erx. injection Erx as <-. unfold translate_res in Etr. apply translate_ok in Etr.
    split; [|destruct f; auto].
    destruct f.
    - refine (@combined_of true (p_cat rt) ra ra (p_cat rt) u _ eq_refl eq_refl _ Pr EU (ex_intro _ _ (ex_intro _ _ eq_refl)) _); [rewrite Ec in Pl; now inversion Pl|].
      cbn [p_rule p_cat binary]. rewrite Ec in *. unfold fwd in D. cbn in D. apply Ascii.eqb_eq in D. subst d. now constructor.
    - refine (@combined_of false (p_cat lt) ra (p_cat lt) ra u _ eq_refl eq_refl Pl _ EU (ex_intro _ _ (ex_intro _ _ eq_refl)) _); [rewrite Ec in Pr; now inversion Pr|].
      cbn [p_rule p_cat binary]. rewrite Ec in *. unfold bwd in D. cbn in D. apply Ascii.eqb_eq in D. subst d. now constructor.
  Qed.
  Ltac prop := match goal with H : proper (Sl _ _ _ _ _ _) |- _ => inversion H; subst; clear H end.
  Definition simple (r : prule) : Prop := In r [RFA; RBA; RFC; RBC; RBX; RGFC; RGBX].
  Lemma comp_plain k t u ar1 ra rr rc ax ac :
    match k with BC => bwd (p_cat lt) && bwd (p_cat rt) | FC => fwd (p_cat lt) && fwd (p_cat rt) | BX => fwd (p_cat lt) && bwd (p_cat rt) end = true ->
    need (c_res (if comp_fwd k then p_cat rt else p_cat lt)) = Ok ar1 ->
    need (c_arg (if comp_fwd k then p_cat lt else p_cat rt)) = Ok ra ->
    unify order lt rt (comp_fwd k) ar1 ra = Some u ->
    need (c_res (if comp_fwd k then p_cat lt else p_cat rt)) = Ok rr -> translate_res (comp_fwd k) u rr = Ok rc ->
    need (c_arg (if comp_fwd k then p_cat rt else p_cat lt)) = Ok ax -> translate_arg (comp_fwd k) u ax = Ok ac ->
    t = binary lt rt (match k with BC => RBC | FC => RFC | BX => RBX end) (slash rc (match k with BC => "\"%char | _ => "/"%char end) ac (outer_var lt u) None 0) u ->
    combined lt rt t /\ simple (p_rule t).
  Proof.
    intros D E1 E2 EU E3 T1 E4 T2 ->. apply need_res in E1. destruct E1 as (d1 & x1 & v1 & rel1 & tr1 & Ea). apply need_arg in E2. destruct E2 as (d & X & v & rel & tr & Ef).
    rewrite Ef in E3. injection E3 as <-. rewrite Ea in E4. injection E4 as <-.
    unfold translate_res in T1; unfold translate_arg in T2. apply translate_ok in T1. apply translate_ok in T2.
    destruct k; cbn [comp_fwd] in *; (split; [|unfold simple; cbn; tauto]).
    - refine (@combined_of false ar1 ra ar1 ra u _ eq_refl eq_refl _ _ EU (ex_intro _ _ (ex_intro _ _ eq_refl)) _); [rewrite Ea in Pl; now prop | rewrite Ef in Pr; now prop|].
      cbn [p_rule p_cat binary slash]. rewrite Ea, Ef in *. unfold bwd in D. cbn [c_dir] in D. apply andb_true_iff in D. destruct D as [D1 D2]. apply Ascii.eqb_eq in D1. apply Ascii.eqb_eq in D2. subst.
      econstructor; [exact T1 | exact T2 | apply outer_case; now rewrite Ea].
    - refine (@combined_of false ar1 ra ar1 ra u _ eq_refl eq_refl _ _ EU (ex_intro _ _ (ex_intro _ _ eq_refl)) _); [rewrite Ea in Pl; now prop | rewrite Ef in Pr; now prop|].
      cbn [p_rule p_cat binary slash]. rewrite Ea, Ef in *. unfold bwd, fwd in D. cbn [c_dir] in D. apply andb_true_iff in D. destruct D as [D1 D2]. apply Ascii.eqb_eq in D1. apply Ascii.eqb_eq in D2. subst.
      econstructor; [exact T1 | exact T2 | apply outer_case; now rewrite Ea].
    - refine (@combined_of true ar1 ra ra ar1 u _ eq_refl eq_refl _ _ EU (ex_intro _ _ (ex_intro _ _ eq_refl)) _); [rewrite Ef in Pl; now prop | rewrite Ea in Pr; now prop|].
      cbn [p_rule p_cat binary slash]. rewrite Ea, Ef in *. unfold fwd in D. cbn [c_dir] in D. apply andb_true_iff in D. destruct D as [D1 D2]. apply Ascii.eqb_eq in D1. apply Ascii.eqb_eq in D2. subst.
      econstructor; [exact T1 | exact T2 | apply outer_case; now rewrite Ef].
  Qed.
  Definition guard (k : comp) : bool := match k with BC => false | FC => fwd (p_cat lt) && fwd (p_cat rt) | BX => fwd (p_cat lt) && bwd (p_cat rt) end.
  Lemma gc2_ok k t a1 : guard k = true -> need (c_res (if comp_fwd k then p_cat rt else p_cat lt)) = Ok a1 -> fwd a1 = true ->
    gc2 order lt rt k = Ok (Some t) -> combined lt rt t /\ simple (p_rule t).
  Proof.
    intros D E1 D1 H. unfold gc2 in H. cbv zeta in H. rewrite E1 in H. cbn [bind] in H. bk H a2 E2. bk H ra Era.
    destruct (unify _ _ _ _ _ _) as [u|] eqn:EU; [|discriminate]. bk H rr Erx. bk H ir T1. bk H a1x E3. bk H ia T2.
    destruct ((if comp_fwd k then u_tr u else u_tl u) (c_var a1)) as [iv|] eqn:Ev; [|discriminate]. bk H ax E4. bk H na T3. injection H as <-.
    apply need_res in E1. destruct E1 as (d2 & x2 & v2 & rel2 & tr2 & Ea). apply need_res in E2. destruct E2 as (d1 & x1 & v1 & rel1 & tr1 & Ea1). apply need_arg in Era. destruct Era as (d & X & v & rel & tr & Ef).
    rewrite Ef in Erx. injection Erx as <-. subst a1. injection E3 as <-. rewrite Ea in E4. injection E4 as <-.
    unfold translate_res in T1; unfold translate_arg in T2, T3. apply translate_ok in T1. apply translate_ok in T2. apply translate_ok in T3.
    unfold fwd in D1. cbn [c_dir] in D1. apply Ascii.eqb_eq in D1. subst d1.
    destruct k; cbn [comp_fwd guard] in *; [discriminate| |]; (split; [|unfold simple; cbn; tauto]).
    - refine (@combined_of false a2 ra a2 ra u _ eq_refl eq_refl _ _ EU (ex_intro _ _ (ex_intro _ _ eq_refl)) _); [rewrite Ea in Pl; prop; now prop | rewrite Ef in Pr; now prop|].
      cbn [p_rule p_cat binary slash c_dir c_rel]. rewrite Ea, Ef in *. unfold bwd, fwd in D. cbn [c_dir] in D. apply andb_true_iff in D. destruct D as [D1 D2]. apply Ascii.eqb_eq in D1. apply Ascii.eqb_eq in D2. subst.
      cbn [c_dir c_rel]. econstructor; [exact T1 | exact T2 | exact T3 | exact Ev | apply outer_case; now rewrite Ea].
    - refine (@combined_of true a2 ra ra a2 u _ eq_refl eq_refl _ _ EU (ex_intro _ _ (ex_intro _ _ eq_refl)) _); [rewrite Ef in Pl; now prop | rewrite Ea in Pr; prop; now prop|].
      cbn [p_rule p_cat binary slash c_dir c_rel]. rewrite Ea, Ef in *. unfold bwd, fwd in D. cbn [c_dir] in D. apply andb_true_iff in D. destruct D as [D1 D2]. apply Ascii.eqb_eq in D1. apply Ascii.eqb_eq in D2. subst.
      cbn [c_dir c_rel]. econstructor; [exact T1 | exact T2 | exact T3 | exact Ev | apply outer_case; now rewrite Ef].
  Qed.
  Lemma gc3_ok k t a1 a2 : guard k = true -> need (c_res (if comp_fwd k then p_cat rt else p_cat lt)) = Ok a1 -> need (c_res a1) = Ok a2 -> fwd a1 = true -> fwd a2 = true ->
    gc3 order lt rt k = Ok (Some t) -> combined lt rt t /\ simple (p_rule t).
  Proof.
    intros D E1 E2 D1 D2 H. unfold gc3 in H. cbv zeta in H. rewrite E1 in H. cbn [bind] in H. rewrite E2 in H. cbn [bind] in H. bk H a3 E5. bk H ra Era.
    destruct (unify _ _ _ _ _ _) as [u|] eqn:EU; [|discriminate]. bk H rr Erx. bk H ir T1. bk H a2x E6. bk H iia T4.
    destruct ((if comp_fwd k then u_tr u else u_tl u) (c_var a2)) as [iiv|] eqn:Ev2; [|discriminate]. bk H a1x E3. bk H ia T2.
    destruct ((if comp_fwd k then u_tr u else u_tl u) (c_var a1)) as [iv|] eqn:Ev; [|discriminate]. bk H ax E4. bk H na T3. injection H as <-.
    apply need_res in E1. destruct E1 as (d2 & x2 & v2 & rel2 & tr2 & Ea). apply need_res in E2. destruct E2 as (d1 & x1 & v1 & rel1 & tr1 & Ea1).
    apply need_res in E5. destruct E5 as (d0 & x0 & v0 & rel0 & tr0 & Ea2). apply need_arg in Era. destruct Era as (d & X & v & rel & tr & Ef).
    rewrite Ef in Erx. injection Erx as <-. subst a1. injection E3 as <-. rewrite Ea in E4. injection E4 as <-. subst a2. injection E6 as <-.
    unfold translate_res in T1; unfold translate_arg in T2, T3, T4. apply translate_ok in T1. apply translate_ok in T2. apply translate_ok in T3. apply translate_ok in T4.
    unfold fwd in D1, D2. cbn [c_dir] in D1, D2. apply Ascii.eqb_eq in D1. apply Ascii.eqb_eq in D2. subst d1 d0.
    destruct k; cbn [comp_fwd guard] in *; [discriminate| |]; (split; [|unfold simple; cbn; tauto]).
    - refine (@combined_of false a3 ra a3 ra u _ eq_refl eq_refl _ _ EU (ex_intro _ _ (ex_intro _ _ eq_refl)) _); [rewrite Ea in Pl; prop; prop; now prop | rewrite Ef in Pr; now prop|].
      cbn [p_rule p_cat binary slash c_dir c_rel]. rewrite Ea, Ef in *. unfold bwd, fwd in D. cbn [c_dir] in D. apply andb_true_iff in D. destruct D as [D1 D2]. apply Ascii.eqb_eq in D1. apply Ascii.eqb_eq in D2. subst.
      cbn [c_dir c_rel]. econstructor; [exact T1 | exact T4 | exact T2 | exact T3 | exact Ev2 | exact Ev | apply outer_case; now rewrite Ea].
    - refine (@combined_of true a3 ra ra a3 u _ eq_refl eq_refl _ _ EU (ex_intro _ _ (ex_intro _ _ eq_refl)) _); [rewrite Ef in Pl; now prop | rewrite Ea in Pr; prop; prop; now prop|].
      cbn [p_rule p_cat binary slash c_dir c_rel]. rewrite Ea, Ef in *. unfold bwd, fwd in D. cbn [c_dir] in D. apply andb_true_iff in D. destruct D as [D1 D2]. apply Ascii.eqb_eq in D1. apply Ascii.eqb_eq in D2. subst.
      cbn [c_dir c_rel]. econstructor; [exact T1 | exact T4 | exact T2 | exact T3 | exact Ev2 | exact Ev | apply outer_case; now rewrite Ef].
  Qed.
  Lemma catch_some A (r : res (option A)) t : catch_attr r = Ok (Some t) -> r = Ok (Some t).
  Proof. destruct r as [x|e]; cbn; [auto|]. destruct e; discriminate. Qed.
  Lemma generalised_ok k t : guard k = true -> generalised order lt rt k = Ok (Some t) -> combined lt rt t /\ simple (p_rule t).
  Proof.
    intros D H. unfold generalised in H. cbv zeta in H. apply catch_some in H. bk H fx E0. destruct (c_matches pat_vp fx); [|discriminate]. bk H a1 E1.
    destruct (fwd a1) eqn:D1; [|discriminate]. bk H a2 E2. bk H a3 E3. destruct (negb _); [|discriminate]. bk H r Er. destruct r as [t'|].
    - injection H as ->. exact (gc2_ok D E1 D1 Er).
    - bk H a4 E4. destruct (fwd a2 && _) eqn:D2; [|discriminate]. apply andb_true_iff in D2. destruct D2 as [D2 _]. exact (gc3_ok D E1 E2 D1 D2 H).
  Qed.
  Lemma generalised_bc_ok t : generalised_bc order lt rt = Ok (Some t) -> p_rule t = RGBC.
  Proof.
    intros H. unfold generalised_bc in H. bk H r1 E1. destruct (negb _); [discriminate|]. bk H r2 E2. destruct (p_vars lt _) as [[fs [|]]|]; try discriminate.
    bk H ra E3. destruct (unify _ _ _ _ _ _); [|discriminate]. now injection H as <-.
  Qed.
  Lemma composition_ok k t : match k with BC => bwd (p_cat lt) && bwd (p_cat rt) | FC => fwd (p_cat lt) && fwd (p_cat rt) | BX => fwd (p_cat lt) && bwd (p_cat rt) end = true ->
    composition order lt rt k = Ok (Some t) -> p_rule t <> RGBC -> combined lt rt t /\ simple (p_rule t).
  Proof.
    intros D H N. unfold composition in H. cbv zeta in H. bk H ar1 E1. bk H ra E2. destruct (unify _ _ _ _ _ _) as [u|] eqn:EU.
    - bk H rr E3. bk H rc T1. bk H ax E4. bk H ac T2. injection H as <-. exact (comp_plain D E1 E2 EU E3 T1 E4 T2 eq_refl).
    - destruct k; [exfalso; exact (N (generalised_bc_ok H)) | exact (generalised_ok (k := BX) D H) | exact (generalised_ok (k := FC) D H)].
  Qed.

  Variable pl pr : cat -> cat -> list cat. Variable inst_tbl : cat -> cat -> bool. Variable eisner : bool.
  Lemma rule_in_iff t l : rule_in t l = true <-> In (p_rule t) l.
  Proof.
    unfold rule_in. rewrite existsb_exists. split.
    - intros (r & Hr & E). apply Nat.eqb_eq in E. replace (p_rule t) with r; [exact Hr|]. destruct r, (p_rule t); cbn in E; congruence.
    - intros H. exists (p_rule t). split; [exact H | apply Nat.eqb_refl].
  Qed.
  Lemma rule_in_false t l : rule_in t l = false <-> ~ In (p_rule t) l.
  Proof. rewrite <- rule_in_iff. destruct (rule_in t l); split; congruence. Qed.
  Lemma punct_of c : proper c -> is_punct (c_atom c) = true -> punctuation c.
  Proof.
    intros P H. destruct c as [a f v rel|]; [|discriminate H]. exists a, f, v, rel. split; [reflexivity|]. cbn [c_atom] in H. destruct a; cbn in H; try discriminate; cbn; tauto.
  Qed.
  Definition ok_result (t : ptree) : Prop := children t = (Some lt, Some rt) /\ outcome pl pr lt rt t /\ normal_form eisner lt rt t.
  Lemma binary_children ru c u : children (binary lt rt ru c u) = (Some lt, Some rt).
  Proof. reflexivity. Qed.
  Lemma application_children (f : bool) t : application order lt rt f = Ok (Some t) -> children t = (Some lt, Some rt) /\ p_rule t = if f then RFA else RBA.
  Proof.
    intros H. unfold application in H. cbv zeta in H. bk H ra Era. destruct (unify _ _ _ _ _ _) as [u|]; [|discriminate]. bk H rr Erx. bk H c Etr. injection H as <-. split; reflexivity.
  Qed.
  Lemma generalised_children k t : generalised order lt rt k = Ok (Some t) -> children t = (Some lt, Some rt) /\ p_rule t = if comp_fwd k then RGFC else RGBX.
  Proof.
    intros H. unfold generalised in H. cbv zeta in H. apply catch_some in H. bk H fx E0. destruct (c_matches pat_vp fx); [|discriminate]. bk H a1 E1.
    destruct (fwd a1) eqn:D1; [|discriminate]. bk H a2 E2. bk H a3 E3. destruct (negb _); [|discriminate]. bk H r Er. destruct r as [t'|].
    - injection H as ->. unfold gc2 in Er. cbv zeta in Er. bk Er x1 F1. bk Er x2 F2. bk Er x3 F3. destruct (unify _ _ _ _ _ _) as [u|]; [|discriminate].
      bk Er x4 F4. bk Er x5 F5. bk Er x6 F6. bk Er x7 F7. lazymatch goal with E : match ?X with Some _ => _ | None => Err KeyError end = _ |- _ => destruct X; [|discriminate] end. bk Er x8 F8. bk Er x9 F9. injection Er as <-. split; reflexivity.
    - bk H a4 E4. destruct (fwd a2 && _) eqn:D2; [|discriminate]. unfold gc3 in H. cbv zeta in H. bk H x1 F1. bk H x2 F2. bk H x3 F3. bk H y3 G3. destruct (unify _ _ _ _ _ _) as [u|]; [|discriminate].
      bk H x4 F4. bk H x5 F5. bk H x6 F6. bk H x7 F7. lazymatch goal with E : match ?X with Some _ => _ | None => Err KeyError end = _ |- _ => destruct X; [|discriminate] end. bk H x8 F8. bk H x9 F9. lazymatch goal with E : match ?X with Some _ => _ | None => Err KeyError end = _ |- _ => destruct X; [|discriminate] end. bk H x10 F10. bk H x11 F11. injection H as <-. split; reflexivity.
  Qed.
  Lemma gbc_outcome t : bwd (p_cat rt) = true -> generalised_bc order lt rt = Ok (Some t) -> children t = (Some lt, Some rt) /\ outcome pl pr lt rt t.
  Proof.
    intros Db H. unfold generalised_bc in H. bk H r1 E1. destruct (negb (c_matches pat_ss r1)) eqn:M; [discriminate|]. apply negb_false_iff in M. bk H r2 E2. destruct (p_vars lt _) as [[fs [|]]|]; try discriminate.
    bk H ra E3. destruct (unify _ _ _ _ _ _) as [u|] eqn:EU; [|discriminate]. injection H as <-. split; [reflexivity|].
    apply need_res in E1. destruct E1 as (d & W & v2 & rel2 & tr2 & El). apply need_res in E2. destruct E2 as (d1 & Z & v1 & rel1 & tr1 & Er1). apply need_arg in E3. destruct E3 as (d0 & X & v & rel & tr & Er).
    rewrite Er1 in M. cbn [c_matches pat_ss] in M. rewrite !andb_true_iff in M. destruct M as [[M1 [M2 _]] _]. apply Ascii.eqb_eq in M1. subst d1.
    rewrite Er in Db. cbn in Db. apply Ascii.eqb_eq in Db. cbn in Db. subst d0.
    assert (P2 : proper r2) by (rewrite El, Er1 in Pl; prop; now prop). assert (Pa : proper ra) by (rewrite Er in Pr; now prop).
    destruct (@unify_ok order lt rt order_ok (facing r2 ra) false r2 ra r2 ra u eq_refl eq_refl P2 Pa (fun a b x => x) EU) as (Un & _).
    subst r1. apply (@oc_gbc pl pr lt rt (binary lt rt RGBC (p_cat lt) u) r2 Z v1 rel1 tr1 d W v2 rel2 tr2 X ra v rel tr eq_refl El); [|exact Er | exact Un | reflexivity].
    apply atomk_eqb_eq in M2. destruct r2 as [k f w rl|]; cbn [c_atom] in M2; [now subst k | discriminate].
  Qed.
  Lemma composition_children k t : composition order lt rt k = Ok (Some t) -> children t = (Some lt, Some rt) /\
    In (p_rule t) match k with BC => [RBC; RGBC] | FC => [RFC; RGFC] | BX => [RBX; RGBX] end.
  Proof.
    intros H. unfold composition in H. cbv zeta in H. bk H ar1 E1. bk H ra E2. destruct (unify _ _ _ _ _ _) as [u|] eqn:EU.
    - bk H rr E3. bk H rc T1. bk H ax E4. bk H ac T2. injection H as <-. split; [reflexivity|]. destruct k; cbn; auto.
    - destruct k.
      + assert (H0 := generalised_bc_ok H). split; [|rewrite H0; cbn; auto]. unfold generalised_bc in H. bk H r1 E1'. destruct (negb _); [discriminate|]. bk H r2 E2'. destruct (p_vars lt _) as [[fs [|]]|]; try discriminate.
        bk H ra' E3. destruct (unify order lt rt false r2 ra'); [|discriminate]. now injection H as <-.
      + destruct (generalised_children H) as [C R]. split; [exact C|]. rewrite R. cbn; auto.
      + destruct (generalised_children H) as [C R]. split; [exact C|]. rewrite R. cbn; auto.
  Qed.
  Ltac nf := unfold normal_form, coordinated_or_raised; cbn [In] in *;
    repeat match goal with H : rule_in _ _ = false |- _ => apply rule_in_false in H; cbn [In] in H end;
    repeat match goal with |- _ /\ _ => split end; intros;
    try (match goal with H : p_rule ?t = ?r, K : context [p_rule ?t] |- _ => idtac end);
    intuition congruence.
  Lemma bwd_app_ok t : backward_application order lt rt eisner = Ok (Some t) -> ok_result t.
  Proof.
    unfold backward_application. destruct (bwd (p_cat rt) && _ && _) eqn:G; [|discriminate]. intros H. rewrite !andb_true_iff, !negb_true_iff in G. destruct G as [[G1 G2] G3].
    destruct (application_children H) as [C R]. cbn in R. split; [exact C|]. split.
    - apply oc_rule; [rewrite R; cbn; auto | exact (proj1 (@application_ok false t G1 H))].
    - unfold coordinated_or_type_raised in G2. apply rule_in_false in G2. unfold bwd_comp in G3. unfold normal_form, coordinated_or_raised. rewrite R. cbn [In] in *.
      assert (G3' : eisner = true -> ~ In (p_rule rt) [RBC; RGBC]) by (intros ->; apply rule_in_false; exact G3). cbn [In] in G3'. intuition congruence.
  Qed.
  Lemma fwd_app_ok t : forward_application order lt rt eisner = Ok (Some t) -> ok_result t.
  Proof.
    unfold forward_application. destruct (fwd (p_cat lt) && _ && _) eqn:G; [|discriminate]. intros H. rewrite !andb_true_iff, !negb_true_iff in G. destruct G as [[G1 G2] G3].
    destruct (application_children H) as [C R]. cbn in R. split; [exact C|]. split.
    - apply oc_rule; [rewrite R; cbn; auto | exact (proj1 (@application_ok true t G1 H))].
    - unfold coordinated_or_type_raised in G2. apply rule_in_false in G2. unfold fwd_comp in G3. unfold normal_form, coordinated_or_raised. rewrite R. cbn [In] in *.
      assert (G3' : eisner = true -> ~ In (p_rule lt) [RFC; RGFC]) by (intros ->; apply rule_in_false; exact G3). cbn [In] in G3'. intuition congruence.
  Qed.
  Lemma comp_outcome k t : match k with BC => bwd (p_cat lt) && bwd (p_cat rt) | FC => fwd (p_cat lt) && fwd (p_cat rt) | BX => fwd (p_cat lt) && bwd (p_cat rt) end = true ->
    composition order lt rt k = Ok (Some t) -> outcome pl pr lt rt t.
  Proof.
    intros D H. destruct (prule_n (p_rule t) =? prule_n RGBC)%nat eqn:E.
    - assert (R : p_rule t = RGBC) by (apply Nat.eqb_eq in E; destruct (p_rule t); cbn in E; congruence).
      unfold composition in H. cbv zeta in H. bk H ar1 E1. bk H ra E2. destruct (unify _ _ _ _ _ _) as [u|] eqn:EU.
      + bk H rr E3. bk H rc T1. bk H ax E4. bk H ac T2. injection H as <-. destruct k; discriminate R.
      + destruct k; [|exfalso; apply generalised_children in H; destruct H as [_ H]; rewrite R in H; discriminate H..]. apply andb_true_iff in D. exact (proj2 (gbc_outcome (proj2 D) H)).
    - assert (N : p_rule t <> RGBC) by (intros R; rewrite R in E; discriminate). destruct (composition_ok D H N) as [C S]. now apply oc_rule.
  Qed.
  Lemma bwd_comp_ok t : backward_composition order lt rt eisner = Ok (Some t) -> ok_result t.
  Proof.
    unfold backward_composition. destruct (bwd (p_cat lt) && _ && _ && _ && _) eqn:G; [|discriminate]. intros H. rewrite !andb_true_iff, !negb_true_iff in G. destruct G as [[[[G1 G2] G3] G4] G5].
    destruct (composition_children H) as [C R]. split; [exact C|]. split; [apply (@comp_outcome BC); [now rewrite G1, G2 | exact H]|].
    unfold coordinated in *. apply rule_in_false in G3. apply rule_in_false in G4. unfold bwd_comp in G5. unfold normal_form, coordinated_or_raised. cbn [In] in *.
    assert (G5' : eisner = true -> ~ In (p_rule rt) [RBC; RGBC]) by (intros ->; apply rule_in_false; exact G5). cbn [In] in G5'. destruct R as [<- | [<- | []]]; intuition congruence.
  Qed.
  Lemma fwd_comp_ok t : forward_composition order lt rt eisner = Ok (Some t) -> ok_result t.
  Proof.
    unfold forward_composition. destruct (fwd (p_cat lt) && _ && _) eqn:G; [|discriminate]. intros H. rewrite !andb_true_iff, !negb_true_iff in G. destruct G as [[G1 G2] G5].
    destruct (composition_children H) as [C R]. split; [exact C|]. split; [apply (@comp_outcome FC); [now rewrite G1, G2 | exact H]|].
    unfold fwd_comp in G5. unfold normal_form, coordinated_or_raised. cbn [In] in *.
    assert (G5' : eisner = true -> ~ In (p_rule lt) [RFC; RGFC]) by (intros ->; apply rule_in_false; exact G5). cbn [In] in G5'. destruct R as [<- | [<- | []]]; intuition congruence.
  Qed.
  Lemma bx_ok t : backward_cross_composition order lt rt = Ok (Some t) -> ok_result t.
  Proof.
    unfold backward_cross_composition. destruct (fwd (p_cat lt) && _ && _) eqn:G; [|discriminate]. intros H. rewrite !andb_true_iff, !negb_true_iff in G. destruct G as [[G1 G2] G3]. bk H x E. destruct (_ || _); [discriminate|].
    destruct (composition_children H) as [C R]. split; [exact C|]. split; [apply (@comp_outcome BX); [now rewrite G1, G2 | exact H]|].
    unfold coordinated in *. apply rule_in_false in G3. unfold normal_form, coordinated_or_raised. cbn [In] in *. destruct R as [<- | [<- | []]]; intuition congruence.
  Qed.
  Lemma conj_vars v : fillers (coordination_tree lt rt) v = fillers rt v /\ ~ filled (coordination_tree lt rt) v.
  Proof. unfold fillers, filled. cbn [p_vars coordination_tree as_filled]. unfold as_filled. destruct (p_vars rt v) as [[f b]|]; (split; [reflexivity|]); intros [g E]; discriminate. Qed.
  Lemma coord_ok t : coordination lt rt = Ok (Some t) -> ok_result t.
  Proof.
    unfold coordination. destruct (_ && _) eqn:G; [|discriminate]. intros [= <-]. rewrite andb_true_iff, negb_true_iff, atomk_eqb_eq in G. destruct G as [G1 G2]. split; [reflexivity|]. split.
    - apply oc_conj; [reflexivity | rewrite G1; cbn; auto | reflexivity | apply conj_vars].
    - unfold coordinated_or_type_raised in G2. apply rule_in_false in G2. unfold normal_form, coordinated_or_raised. cbn [p_rule coordination_tree In] in *. intuition congruence.
  Qed.
  Lemma adj_ok t : adjectival_conj lt rt = Ok (Some t) -> ok_result t.
  Proof.
    unfold adjectival_conj. destruct (_ && _) eqn:G; [|discriminate]. intros [= <-]. rewrite andb_true_iff, !atomk_eqb_eq in G. destruct G as [G1 G2]. split; [reflexivity|]. split.
    - apply oc_adj; [reflexivity | exact G1 | exact G2 | reflexivity | reflexivity].
    - unfold normal_form, coordinated_or_raised. cbn [p_rule pass_through In] in *. intuition congruence.
  Qed.
  Lemma lp_ok t : punctuation (p_cat lt) -> In t (left_punct lt rt pl) -> ok_result t.
  Proof.
    intros P H. unfold left_punct in H. rewrite !in_app_iff in H. destruct H as [H | [H | H]].
    - destruct (coordinated_or_type_raised rt) eqn:G; [destruct H|]. destruct H as [<- | []]. split; [reflexivity|]. split; [apply oc_lp; [reflexivity | exact P | left; split; reflexivity]|].
      unfold normal_form, coordinated_or_raised. cbn [p_rule pass_through In] in *. intuition congruence.
    - destruct (_ && _ && _) eqn:G; [|destruct H]. destruct H as [<- | []]. rewrite !andb_true_iff, orb_true_iff, negb_true_iff, !atomk_eqb_eq in G. destruct G as [[G1 G2] G3]. split; [reflexivity|]. split.
      + apply oc_conj; [reflexivity | cbn; destruct G1 as [-> | ->]; auto | reflexivity | apply conj_vars].
      + unfold coordinated_or_type_raised in G2. apply rule_in_false in G2. unfold normal_form, coordinated_or_raised. cbn [p_rule coordination_tree In] in *. intuition congruence.
    - apply in_map_iff in H. destruct H as (c & <- & Hc). split; [reflexivity|]. split; [apply oc_lp; [reflexivity | exact P | now right]|].
      unfold normal_form, coordinated_or_raised. cbn [p_rule type_change In] in *. intuition congruence.
  Qed.
  Lemma rp_ok t : punctuation (p_cat rt) -> In t (right_punct lt rt pr) -> ok_result t.
  Proof.
    intros P H. unfold right_punct in H. rewrite !in_app_iff in H. destruct H as [H | H].
    - destruct (coordinated_or_type_raised lt) eqn:G; [destruct H|]. destruct H as [<- | []]. split; [reflexivity|]. split; [apply oc_rp; [reflexivity | exact P | left; split; reflexivity]|].
      unfold normal_form, coordinated_or_raised. cbn [p_rule pass_through In] in *. intuition congruence.
    - destruct (coordinated lt); [destruct H|]. apply in_map_iff in H. destruct H as (c & <- & Hc). split; [reflexivity|]. split; [apply oc_rp; [reflexivity | exact P | now right]|].
      unfold normal_form, coordinated_or_raised. cbn [p_rule type_change In] in *. intuition congruence.
  Qed.
  Lemma opt_in (e : res (option ptree)) ts t : rmap opt_list e = Ok ts -> In t ts -> e = Ok (Some t).
  Proof. destruct e as [[x|]|]; cbn; intros [= <-]; cbn; [intros [-> | []]; reflexivity | intros []]. Qed.
  Lemma or_else_some a b t : or_else a b = Ok (Some t) -> a = Ok (Some t) \/ b = Ok (Some t).
  Proof. unfold or_else. destruct a as [[x|]|]; cbn; intros H; try discriminate H; auto. Qed.
  Lemma kind_punct c : proper c -> kind_of c = KPunct -> punctuation c.
  Proof. intros P. unfold kind_of. destruct (is_punct (c_atom c)) eqn:E; [intros _; now apply punct_of|]. destruct (atomk_eqb _ _), (bwd c), (fwd c); discriminate. Qed.
  Lemma combine_ok ts t : combine order lt rt eisner pl pr inst_tbl = Ok ts -> In t ts -> inst_tbl (p_cat lt) (p_cat rt) = true /\ ok_result t.
  Proof.
    unfold combine. destruct (inst_tbl _ _); cbn [negb]; [|intros [= <-] []]. intros H Ht. split; [reflexivity|].
    assert (Kl := @kind_punct _ Pl). assert (Kr := @kind_punct _ Pr).
    destruct (kind_of (p_cat lt)) eqn:El, (kind_of (p_cat rt)) eqn:Er; cbn iota in H;
    first [ injection H as <-; destruct Ht; fail
          | injection H as <-; apply lp_ok; [now apply Kl | exact Ht]
          | injection H as <-; apply rp_ok; [now apply Kr | exact Ht]
          | idtac ].
    all: try (apply (fun H => opt_in H Ht) in H;
      repeat match goal with H : or_else _ _ = Ok (Some _) |- _ => apply or_else_some in H; destruct H as [H | H] end;
      first [exact (bwd_app_ok H) | exact (fwd_app_ok H) | exact (fwd_comp_ok H) | exact (bwd_comp_ok H) | exact (bx_ok H) | exact (coord_ok H)]).
    bk H a Ea. bk H b Eb. injection H as <-. apply in_app_iff in Ht. destruct Ht as [Ht | Ht].
    - destruct a as [x|]; [|destruct Ht]. destruct Ht as [-> | []]. exact (coord_ok Ea).
    - destruct b as [x|]; [|destruct Ht]. destruct Ht as [-> | []]. exact (adj_ok Eb).
  Qed.
End R.
(** ** Corollaries *)
Lemma unifiable_skel l r : unifiable l r -> skeleton l = skeleton r.
Proof. induction 1; cbn; congruence. Qed.
Lemma renamed_skel m g c c' : renamed m g c c' -> skeleton c' = skeleton c.
Proof. induction 1; cbn; congruence. Qed.
Lemma prescribed_textbook rl rr g ru l r yl yr t : prescribed rl rr g ru l r yl yr t -> unifiable yl yr -> textbook ru (skeleton l) (skeleton r) (skeleton t).
Proof.
  intros P U. apply unifiable_skel in U. destruct P; cbn [skeleton]; repeat match goal with H : renamed _ _ _ _ |- _ => apply renamed_skel in H; rewrite H end; first [rewrite U | rewrite <- U]; constructor.
Qed.
Lemma agree_ok g l r : unifiable l r -> (forall x, In x (bindings l r) -> x = g) -> agree g l r.
Proof.
  induction 1 as [a f f' v rel v' rel' H | d r x r' x' v rel tr v' rel' tr' H1 IH1 H2 IH2]; cbn [bindings]; intros B.
  - constructor. intros ->. specialize (H eq_refl). unfold inst. destruct (f =? "X")%string eqn:Ef.
    + rewrite (B f' (or_introl eq_refl)). apply String.eqb_eq in Ef. subst f. destruct (g =? "X")%string eqn:Eg.
      * apply String.eqb_eq in Eg. subst g. now left.
      * destruct (g =? "")%string eqn:E0; [|now left]. apply String.eqb_eq in E0. subst g. right. split; [now right | now left].
    + destruct (f' =? "X")%string eqn:Ef'.
      * rewrite (B f (or_introl eq_refl)). apply String.eqb_eq in Ef'. subst f'. destruct (g =? "")%string eqn:E0; [|now left]. apply String.eqb_eq in E0. subst g. right. split; [now left | now right].
      * destruct H as [-> | [-> | ->]]; [now left | discriminate | discriminate].
  - constructor; [apply IH1 | apply IH2]; intros y Hy; apply B; apply in_or_app; auto.
Qed.
Lemma last_all A (l : list A) g d : (forall x, In x l -> x = g) -> l <> [] -> last l d = g.
Proof. induction l as [|a l IH]; intros H N; [congruence|]. destruct l as [|b l]; [apply H; now left|]. apply IH; [intros x Hx; apply H; now right | discriminate]. Qed.
(** ** No exception *)
Lemma vars_var c : c_var c <> 0 -> In (c_var c) (vars c).
Proof.
  destruct c as [a f v rel | d r x v rel tr]; cbn [c_var vars]; intros N; (destruct (v =? 0)%nat eqn:E; [apply Nat.eqb_eq in E; contradiction|]).
  - now left.
  - unfold addv at 1. destruct (existsb (Nat.eqb v) _) eqn:Ex; [|now left]. apply existsb_exists in Ex. destruct Ex as (w & Hw & Ew). apply Nat.eqb_eq in Ew. now subst w.
Qed.
Lemma vars_sub d r x v rel tr w : In w (vars r) \/ In w (vars x) -> In w (vars (Sl d r x v rel tr)).
Proof.
  assert (add : forall l1 l2 v, In v (fold_right addv l2 l1) <-> In v l1 \/ In v l2).
  { induction l1 as [|a l1 IH]; intros l2 u; cbn [fold_right In]; [tauto|]. unfold addv at 1.
    destruct (existsb (Nat.eqb a) (fold_right addv l2 l1)) eqn:E; [|cbn [In]; rewrite IH; tauto].
    rewrite IH. apply existsb_exists in E. destruct E as (z & Hz & Ez). apply Nat.eqb_eq in Ez. subst z. rewrite IH in Hz. split; [tauto|]. intros [[-> | H] | H]; tauto. }
  intros H. cbn [vars]. assert (In w (fold_right addv (vars r) (vars x))) by (rewrite add; tauto).
  destruct (v =? 0)%nat; [assumption|]. unfold addv at 1. destruct (existsb _ _); [assumption | now right].
Qed.
Section T.
  Variables (order : list nat -> list nat) (lt rt : ptree).
  Hypothesis order_ok : forall l v, In v (order l) <-> In v l.
  Hypothesis Pl : proper (p_cat lt). Hypothesis Pr : proper (p_cat rt).
  Hypothesis Ml : marked_up (p_cat lt). Hypothesis Mr : marked_up (p_cat rt).
  Definition part (c p : cat) : Prop := proper p /\ marked_up p /\ (forall v, In v (vars p) -> In v (vars c)).
  Lemma part_refl c : proper c -> marked_up c -> part c c.
  Proof. split; auto. Qed.
  Lemma part_sl c d r x v rel tr : part c (Sl d r x v rel tr) -> part c r /\ part c x.
  Proof.
    intros (P & (Nv & M1 & M2) & V). inversion P; subst. split; (split; [assumption|]; split; [assumption|]); intros w Hw; apply V; apply vars_sub; auto.
  Qed.
  Lemma unify_parts (f : bool) arg res0 u : proper arg -> proper res0 -> unify order lt rt f arg res0 = Some u ->
    (forall p, part (p_cat lt) p -> (exists c, translate (u_tl u) (u_feat u) p = Ok c) /\ exists n, u_tl u (c_var p) = Some n) /\
    (forall p, part (p_cat rt) p -> (exists c, translate (u_tr u) (u_feat u) p = Ok c) /\ exists n, u_tr u (c_var p) = Some n).
  Proof.
    intros Pa Ps H.
    destruct (@unify_ok order lt rt order_ok (fun _ _ => True) f arg res0 (if f then res0 else arg) (if f then arg else res0) u eq_refl eq_refl) as (_ & _ & _ & Vl & Vr); try (destruct f; assumption); [auto|].
    assert (NV : forall p, marked_up p -> c_var p <> 0) by (intros [|]; cbn; tauto).
    split; intros p (P & M & V); (split; [apply translate_total; auto|]).
    - destruct (u_tl u (c_var p)) eqn:E; [eauto|]. exfalso. apply (Vl (c_var p)); [apply V, vars_var, NV, M | exact E].
    - destruct (u_tr u (c_var p)) eqn:E; [eauto|]. exfalso. apply (Vr (c_var p)); [apply V, vars_var, NV, M | exact E].
  Qed.
  Lemma lpart : part (p_cat lt) (p_cat lt). Proof. now apply part_refl. Qed.
  Lemma rpart : part (p_cat rt) (p_cat rt). Proof. now apply part_refl. Qed.
  Definition fine {A} (r : res A) : Prop := exists x, r = Ok x.
  Lemma dir_complex c d0 : Ascii.eqb (c_dir c) d0 = true -> d0 <> "000"%char -> exists r x v rel tr, c = Sl d0 r x v rel tr.
  Proof. intros H N. apply Ascii.eqb_eq in H. destruct c as [|d r x v rel tr]; cbn in H; [congruence|]. subst d. eauto 6. Qed.
  Lemma application_fine (f : bool) : (if f then fwd (p_cat lt) else bwd (p_cat rt)) = true -> fine (application order lt rt f).
  Proof.
    intros D. unfold application. cbv zeta. destruct f.
    - apply dir_complex in D; [|discriminate]. destruct D as (r & x & v & rel & tr & E). destruct (part_sl (c := p_cat lt)) with (1 := eq_ind _ (part (p_cat lt)) lpart _ E) as [Qr Qx].
      rewrite E. cbn [c_arg c_res need bind]. destruct (unify _ _ _ _ _ _) as [u|] eqn:U; [|eexists; reflexivity].
      destruct (unify_parts (f := true)) with (3 := U) as [Tl Tr]; [exact (proj1 rpart) | exact (proj1 Qx)|]. destruct (Tl _ Qr) as [[c Ec] _]. unfold translate_res. rewrite Ec. cbn. eexists; reflexivity.
    - apply dir_complex in D; [|discriminate]. destruct D as (r & x & v & rel & tr & E). destruct (part_sl (c := p_cat rt)) with (1 := eq_ind _ (part (p_cat rt)) rpart _ E) as [Qr Qx].
      rewrite E. cbn [c_arg c_res need bind]. destruct (unify _ _ _ _ _ _) as [u|] eqn:U; [|eexists; reflexivity].
      destruct (unify_parts (f := false)) with (3 := U) as [Tl Tr]; [exact (proj1 lpart) | exact (proj1 Qx)|]. destruct (Tr _ Qr) as [[c Ec] _]. unfold translate_res. rewrite Ec. cbn. eexists; reflexivity.
  Qed.
  (** a computation whose only possible exception is the AttributeError *)
  Definition only_attr {A} (r : res A) : Prop := fine r \/ r = Err AttributeError.
  Lemma oa_bind A B (e : res A) (f : A -> res B) : only_attr e -> (forall a, e = Ok a -> only_attr (f a)) -> only_attr (do x <- e; f x).
  Proof. intros [[a ->] | ->] H; cbn; [now apply H | now right]. Qed.
  Lemma oa_need o : only_attr (need o).
  Proof. destruct o; [left; eexists; reflexivity | now right]. Qed.
  Lemma oa_ok A (a : A) : only_attr (Ok a). Proof. left; eexists; reflexivity. Qed.
  Lemma fine_oa A (r : res A) : fine r -> only_attr r. Proof. now left. Qed.
  Lemma res_part c p r : part c p -> need (c_res p) = Ok r -> part c r.
  Proof. intros P H. apply need_res in H. destruct H as (d & x & v & rel & tr & ->). exact (proj1 (part_sl P)). Qed.
  Lemma arg_part c p r : part c p -> need (c_arg p) = Ok r -> part c r.
  Proof. intros P H. apply need_arg in H. destruct H as (d & x & v & rel & tr & ->). exact (proj2 (part_sl P)). Qed.
  Definition side (b : bool) : ptree := if b then lt else rt.
  Lemma side_part b : part (p_cat (side b)) (p_cat (side b)).
  Proof. destruct b; [exact lpart | exact rpart]. Qed.
  Lemma tr_res f arg res0 u p : proper arg -> proper res0 -> unify order lt rt f arg res0 = Some u -> part (p_cat (side f)) p -> fine (translate_res f u p).
  Proof. intros A1 A2 U P. destruct (unify_parts A1 A2 U) as [Tl Tr]. unfold translate_res, fine. destruct f; [apply (proj1 (Tl p P)) | apply (proj1 (Tr p P))]. Qed.
  Lemma tr_arg f arg res0 u p : proper arg -> proper res0 -> unify order lt rt f arg res0 = Some u -> part (p_cat (side (negb f))) p ->
    fine (translate_arg f u p) /\ exists n, (if f then u_tr u else u_tl u) (c_var p) = Some n.
  Proof. intros A1 A2 U P. destruct (unify_parts A1 A2 U) as [Tl Tr]. unfold translate_arg, fine. destruct f; [exact (Tr p P) | exact (Tl p P)]. Qed.
  Lemma gc2_oa k : only_attr (gc2 order lt rt k).
  Proof.
    unfold gc2. cbv zeta. set (f := comp_fwd k).
    replace (if f then p_cat lt else p_cat rt) with (p_cat (side f)) by (now destruct f). replace (if f then p_cat rt else p_cat lt) with (p_cat (side (negb f))) by (now destruct f).
    assert (Qf := side_part f). assert (Qa := side_part (negb f)).
    apply oa_bind; [apply oa_need|]. intros a1 E1. apply oa_bind; [apply oa_need|]. intros a2 E2. apply oa_bind; [apply oa_need|]. intros ra E3.
    assert (Q1 := res_part Qa E1). assert (Q2 := res_part Q1 E2). assert (Q3 := arg_part Qf E3).
    destruct (unify _ _ _ _ _ _) as [u|] eqn:U; [|apply oa_ok].
    assert (TR := fun p => @tr_res f _ _ u p (proj1 Q2) (proj1 Q3) U). assert (TA := fun p => @tr_arg f _ _ u p (proj1 Q2) (proj1 Q3) U).
    apply oa_bind; [apply oa_need|]. intros rr E4. apply oa_bind; [apply fine_oa, TR; exact (res_part Qf E4)|]. intros ir _.
    apply oa_bind; [apply oa_need|]. intros a1x E5. apply oa_bind; [apply fine_oa, TA; exact (arg_part Q1 E5)|]. intros ia _.
    destruct (TA a1 Q1) as [_ [n ->]]. apply oa_bind; [apply oa_need|]. intros ax E6. apply oa_bind; [apply fine_oa, TA; exact (arg_part Qa E6)|]. intros na _. apply oa_ok.
  Qed.
  Lemma gc3_oa k : only_attr (gc3 order lt rt k).
  Proof.
    unfold gc3. cbv zeta. set (f := comp_fwd k).
    replace (if f then p_cat lt else p_cat rt) with (p_cat (side f)) by (now destruct f). replace (if f then p_cat rt else p_cat lt) with (p_cat (side (negb f))) by (now destruct f).
    assert (Qf := side_part f). assert (Qa := side_part (negb f)).
    apply oa_bind; [apply oa_need|]. intros a1 E1. apply oa_bind; [apply oa_need|]. intros a2 E2. apply oa_bind; [apply oa_need|]. intros a3 E7. apply oa_bind; [apply oa_need|]. intros ra E3.
    assert (Q1 := res_part Qa E1). assert (Q2 := res_part Q1 E2). assert (Q7 := res_part Q2 E7). assert (Q3 := arg_part Qf E3).
    destruct (unify _ _ _ _ _ _) as [u|] eqn:U; [|apply oa_ok].
    assert (TR := fun p => @tr_res f _ _ u p (proj1 Q7) (proj1 Q3) U). assert (TA := fun p => @tr_arg f _ _ u p (proj1 Q7) (proj1 Q3) U).
    apply oa_bind; [apply oa_need|]. intros rr E4. apply oa_bind; [apply fine_oa, TR; exact (res_part Qf E4)|]. intros ir _.
    apply oa_bind; [apply oa_need|]. intros a2x E8. apply oa_bind; [apply fine_oa, TA; exact (arg_part Q2 E8)|]. intros iia _.
    destruct (TA a2 Q2) as [_ [n2 ->]].
    apply oa_bind; [apply oa_need|]. intros a1x E5. apply oa_bind; [apply fine_oa, TA; exact (arg_part Q1 E5)|]. intros ia _.
    destruct (TA a1 Q1) as [_ [n ->]]. apply oa_bind; [apply oa_need|]. intros ax E6. apply oa_bind; [apply fine_oa, TA; exact (arg_part Qa E6)|]. intros na _. apply oa_ok.
  Qed.
  Lemma generalised_fine k : fine (generalised order lt rt k).
  Proof.
    unfold generalised. cbv zeta. match goal with |- fine (catch_attr ?e) => assert (H : only_attr e) end.
    - apply oa_bind; [apply oa_need|]. intros fx _. destruct (c_matches _ _); [|apply oa_ok]. apply oa_bind; [apply oa_need|]. intros a1 _. destruct (fwd a1); [|apply oa_ok].
      apply oa_bind; [apply oa_need|]. intros a2 _. apply oa_bind; [apply oa_need|]. intros a3 _. destruct (negb _); [|apply oa_ok]. apply oa_bind; [apply gc2_oa|]. intros [t|] _; [apply oa_ok|].
      apply oa_bind; [apply oa_need|]. intros a4 _. destruct (_ && _); [apply gc3_oa | apply oa_ok].
    - destruct H as [[x ->] | ->]; cbn; eexists; reflexivity.
  Qed.
  Lemma gbc_fine : bwd (p_cat lt) = true -> bwd (p_cat rt) = true -> fine (generalised_bc order lt rt).
  Proof.
    intros D1 D2. apply dir_complex in D1; [|discriminate]. destruct D1 as (r & x & v & rel & tr & E). apply dir_complex in D2; [|discriminate]. destruct D2 as (r' & x' & v' & rel' & tr' & E').
    unfold generalised_bc. rewrite E, E'. cbn [c_res c_arg need bind]. destruct (negb (c_matches pat_ss r)) eqn:M; [eexists; reflexivity|]. apply negb_false_iff in M.
    destruct r as [|d0 r0 x0 v0 rel0 tr0]; [discriminate M|]. cbn [c_res need bind]. destruct (p_vars lt _) as [[fs [|]]|]; try (eexists; reflexivity). destruct (unify _ _ _ _ _ _); eexists; reflexivity.
  Qed.
  Lemma composition_fine k : match k with BC => bwd (p_cat lt) && bwd (p_cat rt) | FC => fwd (p_cat lt) && fwd (p_cat rt) | BX => fwd (p_cat lt) && bwd (p_cat rt) end = true -> fine (composition order lt rt k).
  Proof.
    intros D. assert (Cl : exists d r x v rel tr, p_cat lt = Sl d r x v rel tr).
    { destruct k; apply andb_true_iff in D; destruct D as [D _]; (apply dir_complex in D; [|discriminate]); destruct D as (r & x & v & rel & tr & E); eauto 8. }
    assert (Cr : exists d r x v rel tr, p_cat rt = Sl d r x v rel tr).
    { destruct k; apply andb_true_iff in D; destruct D as [_ D]; (apply dir_complex in D; [|discriminate]); destruct D as (r & x & v & rel & tr & E); eauto 8. }
    assert (Cs : forall b, exists d r x v rel tr, p_cat (side b) = Sl d r x v rel tr) by (intros [|]; assumption).
    unfold composition. cbv zeta. set (f := comp_fwd k).
    replace (if f then p_cat lt else p_cat rt) with (p_cat (side f)) by (now destruct f). replace (if f then p_cat rt else p_cat lt) with (p_cat (side (negb f))) by (now destruct f).
    destruct (Cs f) as (d & r & x & v & rel & tr & E). destruct (Cs (negb f)) as (d' & r' & x' & v' & rel' & tr' & E').
    assert (Qf := side_part f). assert (Qa := side_part (negb f)). set (cf := p_cat (side f)) in *. set (ca := p_cat (side (negb f))) in *.
    assert (Q1 : part ca r') by (apply (res_part Qa); now rewrite E'). assert (Q2 : part cf x) by (apply (arg_part Qf); now rewrite E).
    assert (Q3 : part ca x') by (apply (arg_part Qa); now rewrite E'). assert (Q4 : part cf r) by (apply (res_part Qf); now rewrite E).
    rewrite E, E'. cbn [c_res c_arg need bind]. destruct (unify _ _ _ _ _ _) as [u|] eqn:U.
    - destruct (@tr_res f _ _ u r (proj1 Q1) (proj1 Q2) U Q4) as [c1 ->]. destruct (@tr_arg f _ _ u x' (proj1 Q1) (proj1 Q2) U Q3) as [[c2 ->] _]. cbn. eexists; reflexivity.
    - destruct k; [|apply generalised_fine..]. apply andb_true_iff in D. now apply gbc_fine.
  Qed.
  Lemma ba_fine e : fine (backward_application order lt rt e).
  Proof. unfold backward_application. destruct (bwd (p_cat rt)) eqn:D; [|eexists; reflexivity]. cbn [andb]. destruct (_ && _); [|eexists; reflexivity]. now apply (application_fine (f := false)). Qed.
  Lemma fa_fine e : fine (forward_application order lt rt e).
  Proof. unfold forward_application. destruct (fwd (p_cat lt)) eqn:D; [|eexists; reflexivity]. cbn [andb]. destruct (_ && _); [|eexists; reflexivity]. now apply (application_fine (f := true)). Qed.
  Lemma bc_fine e : fine (backward_composition order lt rt e).
  Proof. unfold backward_composition. destruct (_ && _ && _ && _ && _) eqn:D; [|eexists; reflexivity]. rewrite !andb_true_iff in D. apply composition_fine. now rewrite (proj1 (proj1 (proj1 (proj1 D)))), (proj2 (proj1 (proj1 (proj1 D)))). Qed.
  Lemma fc_fine e : fine (forward_composition order lt rt e).
  Proof. unfold forward_composition. destruct (_ && _ && _) eqn:D; [|eexists; reflexivity]. rewrite !andb_true_iff in D. apply composition_fine. now rewrite (proj1 (proj1 D)), (proj2 (proj1 D)). Qed.
  Lemma bx_fine : fine (backward_cross_composition order lt rt).
  Proof.
    unfold backward_cross_composition. destruct (_ && _ && _) eqn:D; [|eexists; reflexivity]. rewrite !andb_true_iff in D.
    assert (D2 := proj2 (proj1 D)). apply dir_complex in D2; [|discriminate]. destruct D2 as (r & x & v & rel & tr & E). rewrite E at 1. cbn [c_arg need bind].
    destruct (_ || _); [eexists; reflexivity|]. apply composition_fine. now rewrite (proj1 (proj1 D)), (proj2 (proj1 D)).
  Qed.
  Lemma or_fine a b : fine a -> fine b -> fine (or_else a b).
  Proof. intros [[x|] ->] H; cbn; [eexists; reflexivity | exact H]. Qed.
  Lemma rmap_fine A B (f : A -> B) e : fine e -> fine (rmap f e).
  Proof. intros [x ->]. eexists; reflexivity. Qed.
  Lemma combine_fine e pl pr tbl : fine (combine order lt rt e pl pr tbl).
  Proof.
    unfold combine. destruct (negb _); [eexists; reflexivity|].
    assert (H1 := ba_fine e). assert (H2 := fa_fine e). assert (H3 := bc_fine e). assert (H4 := fc_fine e). assert (H5 := bx_fine).
    assert (H6 : fine (coordination lt rt)) by (eexists; reflexivity).
    destruct (kind_of (p_cat lt)), (kind_of (p_cat rt)); try (eexists; reflexivity); apply rmap_fine; auto using or_fine.
  Qed.
  (** ** Application succeeds exactly when the argument unifies *)
  Lemma unify_var_some l r u : (forall a b, filled lt a -> filled rt b -> a = l -> b = r -> False) -> unify_var lt rt l r u <> None.
  Proof.
    intros H. unfold unify_var. destruct (u_tl u l); [discriminate|]. destruct (u_tr u r); [discriminate|].
    destruct (p_vars lt l) as [[f1 [|]]|] eqn:E1; try discriminate. destruct (p_vars rt r) as [[f2 [|]]|] eqn:E2; try discriminate.
    intros _. apply (H l r); [exists f1 | exists f2 | |]; auto.
  Qed.
  Lemma unify_rec_some l r : unifiable l r -> (forall a b, facing l r a b -> ~ (filled lt a /\ filled rt b)) -> forall u, unify_rec lt rt l r u <> None.
  Proof.
    induction 1 as [a f f' v rel v' rel' H | d lr lx rr rx v rel tr v' rel' tr' H1 IH1 H2 IH2]; intros N u; cbn [unify_rec].
    - assert (V : forall u, unify_var lt rt v v' u <> None).
      { intros w. apply unify_var_some. intros a0 b0 Fa Fb -> ->. apply (N v v'); [apply (fc_here (At a f v rel) (At a f' v' rel')) | tauto]. }
      cbn [c_atom c_feat c_var]. rewrite atomk_eqb_refl. cbn [negb]. destruct (atomk_eqb a AS) eqn:E; [|apply V]. apply atomk_eqb_eq in E.
      destruct (f =? "X")%string eqn:Ef; [apply V|]. destruct (f' =? "X")%string eqn:Ef'; [apply V|]. destruct (H E) as [-> | [-> | ->]]; [|discriminate..]. rewrite String.eqb_refl. cbn. apply V.
    - rewrite Ascii.eqb_refl. destruct (unify_rec lt rt lr rr u) as [u1|] eqn:E1; [|exfalso; refine (IH1 _ u E1); intros a b Hab; apply N; now constructor].
      destruct (unify_rec lt rt lx rx u1) as [u2|] eqn:E2; [|exfalso; refine (IH2 _ u1 E2); intros a b Hab; apply N; now apply fc_arg].
      apply unify_var_some. intros a0 b0 Fa Fb -> ->. apply (N v v'); [apply (fc_here (Sl d lr lx v rel tr) (Sl d rr rx v' rel' tr')) | tauto].
  Qed.
  Lemma forward_iff e X Y v rel tr : p_cat lt = Sl "/" X Y v rel tr -> ~ coordinated_or_raised rt -> ~ (e = true /\ In (p_rule lt) [RFC; RGFC]) ->
    (forall a b, facing Y (p_cat rt) a b -> ~ (filled lt a /\ filled rt b)) ->
    ((exists t, forward_application order lt rt e = Ok (Some t)) <-> unifiable Y (p_cat rt)).
  Proof.
    intros E N1 N2 NF. assert (Q : proper Y) by (rewrite E in Pl; now inversion Pl). assert (QX : part (p_cat lt) X) by (apply (res_part lpart); now rewrite E).
    unfold forward_application. assert (G : fwd (p_cat lt) && negb (coordinated_or_type_raised rt) && negb (e && fwd_comp lt) = true).
    { rewrite !andb_true_iff, !negb_true_iff. split; [split; [rewrite E; reflexivity | now apply rule_in_false]|]. destruct e; [|reflexivity]. cbn [andb]. apply rule_in_false. tauto. }
    rewrite G. unfold application. cbv zeta iota. assert (A1 : need (c_arg (p_cat lt)) = Ok Y) by (now rewrite E). assert (A2 : need (c_res (p_cat lt)) = Ok X) by (now rewrite E). rewrite A1, A2. cbn [bind]. split.
    - intros [t H]. destruct (unify order lt rt true (p_cat rt) Y) as [u|] eqn:U; [|discriminate H].
      exact (proj1 (@unify_ok order lt rt order_ok (fun _ _ => True) true (p_cat rt) Y Y (p_cat rt) u eq_refl eq_refl Q Pr (fun _ _ _ => I) U)).
    - intros Un. destruct (unify order lt rt true (p_cat rt) Y) as [u|] eqn:U.
      + destruct (@tr_res true _ _ u X Pr Q U QX) as [c ->]. cbn. eexists; reflexivity.
      + exfalso. unfold unify in U. destruct (unify_rec lt rt Y (p_cat rt) u_init) eqn:R; [discriminate|]. exact (unify_rec_some Un NF R).
  Qed.
  Lemma backward_iff e X Y v rel tr : p_cat rt = Sl "\" X Y v rel tr -> ~ coordinated_or_raised lt -> ~ (e = true /\ In (p_rule rt) [RBC; RGBC]) ->
    (forall a b, facing (p_cat lt) Y a b -> ~ (filled lt a /\ filled rt b)) ->
    ((exists t, backward_application order lt rt e = Ok (Some t)) <-> unifiable (p_cat lt) Y).
  Proof.
    intros E N1 N2 NF. assert (Q : proper Y) by (rewrite E in Pr; now inversion Pr). assert (QX : part (p_cat rt) X) by (apply (res_part rpart); now rewrite E).
    unfold backward_application. assert (G : bwd (p_cat rt) && negb (coordinated_or_type_raised lt) && negb (e && bwd_comp rt) = true).
    { rewrite !andb_true_iff, !negb_true_iff. split; [split; [rewrite E; reflexivity | now apply rule_in_false]|]. destruct e; [|reflexivity]. cbn [andb]. apply rule_in_false. tauto. }
    rewrite G. unfold application. cbv zeta iota. assert (A1 : need (c_arg (p_cat rt)) = Ok Y) by (now rewrite E). assert (A2 : need (c_res (p_cat rt)) = Ok X) by (now rewrite E). rewrite A1, A2. cbn [bind]. split.
    - intros [t H]. destruct (unify order lt rt false (p_cat lt) Y) as [u|] eqn:U; [|discriminate H].
      exact (proj1 (@unify_ok order lt rt order_ok (fun _ _ => True) false (p_cat lt) Y (p_cat lt) Y u eq_refl eq_refl Pl Q (fun _ _ _ => I) U)).
    - intros Un. destruct (unify order lt rt false (p_cat lt) Y) as [u|] eqn:U.
      + destruct (@tr_res false _ _ u X Pl Q U QX) as [c ->]. cbn. eexists; reflexivity.
      + exfalso. unfold unify in U. destruct (unify_rec lt rt (p_cat lt) Y u_init) eqn:R; [discriminate|]. exact (unify_rec_some Un NF R).
  Qed.
End T.
Lemma sound order l r e pl pr tbl ts t : (forall l v, In v (order l) <-> In v l) -> proper (p_cat l) -> proper (p_cat r) ->
  combine order l r e pl pr tbl = Ok ts -> In t ts -> tbl (p_cat l) (p_cat r) = true /\ children t = (Some l, Some r) /\ outcome pl pr l r t.
Proof. intros O Pl Pr H Ht. destruct (combine_ok O Pl Pr H Ht) as (T & C & Oc & _). auto. Qed.
Lemma nf_ok order l r e pl pr tbl ts t : (forall l v, In v (order l) <-> In v l) -> proper (p_cat l) -> proper (p_cat r) ->
  combine order l r e pl pr tbl = Ok ts -> In t ts -> normal_form e l r t.
Proof. intros O Pl Pr H Ht. destruct (combine_ok O Pl Pr H Ht) as (T & C & Oc & N). exact N. Qed.
Lemma textbook_ok order l r e pl pr tbl ts t : (forall l v, In v (order l) <-> In v l) -> proper (p_cat l) -> proper (p_cat r) ->
  combine order l r e pl pr tbl = Ok ts -> In t ts -> In (p_rule t) [RFA; RBA; RFC; RBC; RBX; RGFC; RGBX] -> textbook (p_rule t) (skeleton (p_cat l)) (skeleton (p_cat r)) (skeleton (p_cat t)).
Proof.
  intros O Pl Pr H Ht R. destruct (sound O Pl Pr H Ht) as (T & C & Oc). cbn [In] in R. destruct Oc as [_ Cm | E | E | E | E | ? ? ? ? ? ? ? ? ? ? ? ? ? ? ? E]; try (exfalso; rewrite E in R; intuition discriminate).
  destruct Cm as (rl & rr & g & yl & yr & P & U & _). exact (prescribed_textbook P U).
Qed.
Lemma gbc_textbook order l r e pl pr tbl ts t : (forall l v, In v (order l) <-> In v l) -> proper (p_cat l) -> proper (p_cat r) ->
  combine order l r e pl pr tbl = Ok ts -> In t ts -> p_rule t = RGBC -> (exists Y, skeleton (p_cat r) = Y \\ Y) -> textbook RGBC (skeleton (p_cat l)) (skeleton (p_cat r)) (skeleton (p_cat t)).
Proof.
  intros O Pl Pr H Ht R [Y EY]. destruct (sound O Pl Pr H Ht) as (T & C & Oc). destruct Oc as [I _ | E | E | E | E | Y0 Z v1 rel1 tr1 d W v2 rel2 tr2 X Y' v rel tr E El S Er U Et]; try congruence.
  - rewrite R in I. cbn in I. intuition discriminate.
  - apply unifiable_skel in U. rewrite Et, El, Er in *. cbn [skeleton] in *. injection EY as E1 E2. rewrite U, E2, E1. constructor.
Qed.
Lemma features_ok order l r e pl pr tbl ts t : (forall l v, In v (order l) <-> In v l) -> proper (p_cat l) -> proper (p_cat r) ->
  combine order l r e pl pr tbl = Ok ts -> In t ts -> In (p_rule t) [RFA; RBA; RFC; RBC; RBX; RGFC; RGBX] ->
  exists rl rr g yl yr, prescribed rl rr g (p_rule t) (p_cat l) (p_cat r) yl yr (p_cat t) /\ unifiable yl yr /\ (g = "" \/ In g (bindings yl yr)) /\
    ((forall x y, In x (bindings yl yr) -> In y (bindings yl yr) -> x = y) -> agree g yl yr)%string.
Proof.
  intros O Pl Pr H Ht R. destruct (sound O Pl Pr H Ht) as (T & C & Oc). cbn [In] in R. destruct Oc as [_ Cm | E | E | E | E | ? ? ? ? ? ? ? ? ? ? ? ? ? ? ? E]; try (exfalso; rewrite E in R; intuition discriminate).
  destruct Cm as (rl & rr & g & yl & yr & P & U & G & _). exists rl, rr, g, yl, yr. split; [exact P|]. split; [exact U|]. destruct (bindings yl yr) as [|b bs] eqn:B.
  - split; [now left|]. intros _. apply agree_ok; [exact U|]. rewrite B. intros x [].
  - assert (Ig : In g (b :: bs)).
    { subst g. clear. revert b. induction bs as [|c bs IH]; intros b; [now left|]. right. apply (IH c). }
    split; [now right|]. intros A. apply agree_ok; [exact U|]. rewrite B. intros x Hx. exact (A _ _ Hx Ig).
Qed.
Lemma match_rule_ok : forall ha hs (T : Type) (rules : list (cat * list T)) c, Forall (fun p => proper (fst p)) rules ->
  (exists before k v after, rules = (before ++ (k, v) :: after)%list /\ same k c /\ (forall p, In p before -> ~ same (fst p) c) /\ match_rule (c_equals ha hs) rules c = v) \/
  ((forall p, In p rules -> ~ same (fst p) c) /\
   ((exists before k v after, rules = (before ++ (k, v) :: after)%list /\ fills k c /\ (forall p, In p before -> ~ fills (fst p) c) /\ match_rule (c_equals ha hs) rules c = v) \/
    ((forall p, In p rules -> ~ fills (fst p) c) /\ match_rule (c_equals ha hs) rules c = []))).
Proof.
  intros ha hs T rules c P. rewrite Forall_forall in P.
  assert (Se : forall p, In p rules -> c_equals ha hs (fst p) c = false -> ~ same (fst p) c).
  { intros p Hp E H. apply (equals_iff ha hs c (P p Hp)) in H. congruence. }
  assert (Sm : forall p, In p rules -> c_matches (fst p) c = false -> ~ fills (fst p) c).
  { intros p Hp E H. apply (matches_iff c (P p Hp)) in H. congruence. }
  unfold match_rule. destruct (find (fun p => c_equals ha hs (fst p) c) rules) as [[k v]|] eqn:E1.
  - left. apply find_first in E1. destruct E1 as (u & w & E & H & U). exists u, k, v, w. split; [exact E|]. split.
    + apply (equals_iff ha hs c (a := k)); [apply (P (k, v)); rewrite E; apply in_elt | exact H].
    + split; [|reflexivity]. intros p Hp. apply Se; [rewrite E; apply in_or_app; now left | now apply U].
  - right. assert (N := proj1 (find_none_iff _ _) E1). split; [intros p Hp; apply Se; [exact Hp | now apply (N p)]|].
    destruct (find (fun p => c_matches (fst p) c) rules) as [[k v]|] eqn:E2.
    + left. apply find_first in E2. destruct E2 as (u & w & E & H & U). exists u, k, v, w. split; [exact E|]. split.
      * apply (matches_iff c (a := k)); [apply (P (k, v)); rewrite E; apply in_elt | exact H].
      * split; [|reflexivity]. intros p Hp. apply Sm; [rewrite E; apply in_or_app; now left | now apply U].
    + right. split; [|reflexivity]. assert (M := proj1 (find_none_iff _ _) E2). intros p Hp. apply Sm; [exact Hp | now apply (M p)].
Qed.
(** ** Counterexamples *)
Ltac prp := repeat (first [apply proper_at; discriminate | apply proper_sl; [first [now left | now right] | |]]).
Lemma gbc_bad : ~ (forall ts t, proper (p_cat gbc_l) -> proper (p_cat gbc_r) -> combine same_order gbc_l gbc_r true none none yes = Ok ts -> In t ts -> p_rule t = RGBC ->
  textbook RGBC (skeleton (p_cat gbc_l)) (skeleton (p_cat gbc_r)) (skeleton (p_cat t))).
Proof.
  intros H. assert (Pl : proper (p_cat gbc_l)) by (cbn; prp). assert (Pr : proper (p_cat gbc_r)) by (cbn; prp).
  destruct (combine same_order gbc_l gbc_r true none none yes) as [ts|] eqn:E; [|vm_compute in E; discriminate E].
  destruct ts as [|t ts]; [vm_compute in E; discriminate E|]. specialize (H (t :: ts) t Pl Pr eq_refl (or_introl eq_refl)). vm_compute in E. injection E as <- _. specialize (H eq_refl). cbn in H. inversion H.
Qed.
Lemma feat_bad : exists ts t, combine same_order fa_l fa_r true none none yes = Ok ts /\ In t ts /\ p_rule t = RFA /\ c_res (p_cat t) = Some (At AS "b" 1 None) /\
  forall g, ~ agree g (two "X" "X" 1 2 4) (p_cat fa_r).
Proof.
  eexists _, _. split; [vm_compute; reflexivity|]. split; [left; reflexivity|]. split; [reflexivity|]. split; [reflexivity|]. intros g H. inversion H; subst.
  match goal with A : agree g _ (At AS "dcl" _ _), B : agree g _ (At AS "b" _ _) |- _ => inversion A; inversion B; subst end.
  unfold inst, free in *. cbn in *. destruct (g =? "")%string; intuition congruence.
Qed.
Lemma cancel_bad : exists ts t, combine same_order fa_l fa_r2 true none none yes = Ok ts /\ In t ts /\ p_rule t = RFA /\ c_res (p_cat t) = Some (At AS "X" 1 None) /\
  agree "dcl" (two "X" "X" 1 2 4) (p_cat fa_r2) /\ ~ agree "" (two "X" "X" 1 2 4) (p_cat fa_r2).
Proof.
  eexists _, _. split; [vm_compute; reflexivity|]. split; [left; reflexivity|]. split; [reflexivity|]. split; [reflexivity|]. split.
  - constructor; constructor; intros _; now left.
  - intros H. inversion H; subst. match goal with A : agree "" _ (At AS "dcl" _ _) |- _ => inversion A; subst end. unfold inst, free in *. cbn in *. intuition congruence.
Qed.
Lemma unmarked_bad : ~ (forall order l r eisner pl pr tbl, (forall vs v, In v (order vs) <-> In v vs) ->
  proper (p_cat l) -> proper (p_cat r) -> exists ts, combine order l r eisner pl pr tbl = Ok ts).
Proof.
  intros H. destruct (H same_order (leaf (Sl "/" (Sl "/" (At AS "" 1 None) (At ANP "" 2 None) 0 None 0) (At AN "" 3 None) 1 None 0) "left") (leaf (At AN "" 1 None) "right") true none none yes (fun vs v => iff_refl _)) as [ts E];
    [cbn; prp | cbn; prp | vm_compute in E; discriminate E].
Qed.
Lemma pairs_fine : Forall (fun p => proper (p_cat (fst p)) /\ proper (p_cat (snd p)) /\ marked_up (p_cat (fst p)) /\ marked_up (p_cat (snd p))) C65_pairs.
Proof. unfold C65_pairs. repeat (apply Forall_cons; [split; [cbn; prp | split; [cbn; prp | cbn; repeat split; discriminate]] | ]). constructor. Qed.
Close Scope string_scope.
