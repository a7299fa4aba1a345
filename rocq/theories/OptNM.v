From Coq Require Import QArith Qround Qabs Lqa Sorted Permutation.
From Verif Require Import PyBase OptModel OptFacts.
Set Implicit Arguments. Unset Strict Implicit.
Local Open Scope Q_scope.

Lemma Forall2_upd A B (R : A -> B -> Prop) l m i x y : Forall2 R l m -> R x y -> Forall2 R (upd l i x) (upd m i y).
Proof. intros H; revert i. induction H; intros [|i] HR; cbn; constructor; auto. Qed.
Lemma Forall2_upd_l A B (R : A -> B -> Prop) l m i x : Forall2 R l m -> (forall y, nth_error m i = Some y -> R x y) -> Forall2 R (upd l i x) m.
Proof. intros H; revert i. induction H; intros [|i] HR; cbn; constructor; auto. Qed.
Lemma Forall_upd A (R : A -> Prop) l i x : Forall R l -> R x -> Forall R (upd l i x).
Proof. intros H; revert i. induction H; intros [|i] HR; cbn; constructor; auto. Qed.
Lemma Forall2_nth_both A B (R : A -> B -> Prop) l m i d e : Forall2 R l m -> (i < List.length l)%nat -> R (nth i l d) (nth i m e).
Proof. intros H; revert i. induction H; intros [|i]; cbn; auto; intro; try lia. apply IHForall2; lia. Qed.
Lemma Forall2_take A B (R : A -> B -> Prop) l m ind d e : Forall2 R l m -> Forall (fun i => (i < List.length l)%nat) ind -> Forall2 R (take d l ind) (take e m ind).
Proof. intros H F. induction F; cbn; constructor; auto. now apply Forall2_nth_both. Qed.
Lemma nth_upd_other A (l : list A) i j x d : i <> j -> nth j (upd l i x) d = nth j l d.
Proof. revert i j; induction l; intros [|i] [|j]; cbn; auto; congruence. Qed.
Lemma nth_upd_same A (l : list A) i x d : (i < List.length l)%nat -> nth i (upd l i x) d = x.
Proof. revert i; induction l; intros [|i]; cbn; auto; try lia. intro; apply IHl; lia. Qed.

Lemma Forall2_len A B (R : A -> B -> Prop) l m : Forall2 R l m -> List.length l = List.length m.
Proof. induction 1; cbn; congruence. Qed.
Lemma Forall2_mono A B (R R' : A -> B -> Prop) l m : (forall a b, R a b -> R' a b) -> Forall2 R l m -> Forall2 R' l m.
Proof. induction 2; constructor; auto. Qed.

Lemma fold_inv A B (I : A -> Prop) (body : A -> B -> A) l : forall s, I s -> (forall s k, In k l -> I s -> I (body s k)) -> I (fold_left body l s).
Proof. induction l; intros s Hs H; cbn; auto. apply IHl; [apply H; cbn; auto|]. intros. apply H; cbn; auto. Qed.

(** ** vocabulary of the statements *)
(** component-wise inside the bounds, and one component per parameter *)
Definition in_bounds (b : option (list (Q * Q))) (n : nat) (v : vec) : Prop :=
  List.length v = n /\ match b with None => True | Some bs => Forall2 (fun x lh => fst lh <= x <= snd lh) v bs end.
Definition good_bounds (b : option (list (Q * Q))) (n : nat) : Prop :=
  match b with None => True | Some bs => List.length bs = n /\ Forall (fun lh => fst lh <= snd lh) bs end.
(** numpy.argsort: a permutation of the indices that sorts the array *)
Definition is_argsort (argsort : list Q -> list nat) : Prop :=
  forall l, Permutation (argsort l) (seq 0 (List.length l)) /\ StronglySorted Qle (take 0 l (argsort l)).

Section NMF.
  Variable nb : option (list (Q * Q)).
  Variables rho chi psi sigma xatol fatol : Q.
  Variable argsort : list Q -> list nat.
  Variable dim : nat.
  Hypothesis AS : is_argsort argsort.
  Hypothesis DIM : (1 <= dim)%nat.
  Hypothesis GB : good_bounds nb dim.
  Variable f : vec -> Q.
  Variable P : vec -> Q -> Prop.
  Hypothesis PF : forall v, P v (f v).
  Notation V := (in_bounds nb dim).
  Notation R := (fun v l => V v /\ P v l).

  Lemma project_V x : List.length x = dim -> V (nm_project nb x).
  Proof.
    intro L. unfold in_bounds, nm_project. unfold good_bounds in GB. destruct nb as [bs|]; [|auto]. destruct GB as [LB F].
    rewrite map2_length, L, LB, Nat.min_id. split; auto. clear GB. rewrite <- LB in L. clear LB. revert x L.
    induction F as [|[lo hi] bs Hl F IH]; intros [|q x] L; cbn in *; try discriminate; constructor; auto. now apply qclip_in.
  Qed.
  Lemma vadd_len a b : List.length a = dim -> List.length b = dim -> List.length (vadd a b) = dim.
  Proof. intros A B. unfold vadd. rewrite map2_length, A, B. lia. Qed.
  Lemma vsub_len a b : List.length a = dim -> List.length b = dim -> List.length (vsub a b) = dim.
  Proof. intros A B. unfold vsub. rewrite map2_length, A, B. lia. Qed.
  Lemma vscale_len k a : List.length a = dim -> List.length (vscale k a) = dim.
  Proof. intros A. unfold vscale. now rewrite map_length. Qed.
  Lemma vsum_len l : l <> [] -> Forall (fun v => List.length v = dim) l -> List.length (vsum l) = dim.
  Proof.
    intros N F. destruct l as [|x l]; [congruence|]. cbn. apply Forall_cons_iff in F. destruct F as [Fx Fl]. clear N. revert x Fx. induction Fl as [|z l Fz Fl IH]; intros y Hy; cbn; auto.
    apply IH. now apply vadd_len.
  Qed.

  Definition good (s : nm) : Prop := Forall2 R (sim s) (fsim s) /\ List.length (sim s) = S dim.

  Lemma good_len s : good s -> List.length (sim s) = S dim /\ List.length (fsim s) = S dim.
  Proof. intros [F L]. split; auto. rewrite <- L. symmetry. eapply Forall2_len; eauto. Qed.
  Lemma good_V s i : good s -> (i <= dim)%nat -> V (nth i (sim s) []).
  Proof. intros [F L] Hi. apply (@Forall2_nth_both _ _ R _ _ i [] 0 F). lia. Qed.

  Lemma set_last_good s x fx : good s -> V x -> P x fx -> good (set_last s x fx) /\ nth 0 (fsim (set_last s x fx)) 0 = nth 0 (fsim s) 0.
  Proof.
    intros G Vx Px. destruct (good_len G) as [L1 L2]. destruct G as [F L]. unfold set_last, good. cbn. rewrite L1, L2. split; [split|].
    - apply Forall2_upd; auto.
    - now rewrite upd_length.
    - apply nth_upd_other. lia.
  Qed.

  Lemma shrink_good s : good s -> good (shrink nb sigma dim f s) /\ nth 0 (fsim (shrink nb sigma dim f s)) 0 = nth 0 (fsim s) 0 /\ first_iter (shrink nb sigma dim f s) = first_iter s.
  Proof.
    intro G. unfold shrink.
    apply (fold_inv (I := fun t => good t /\ nth 0 (fsim t) 0 = nth 0 (fsim s) 0 /\ first_iter t = first_iter s)); [auto|].
    intros t k Ik (Gt & E0 & FI). apply in_seq in Ik. destruct (good_len Gt) as [L1 L2]. unfold eval, good. cbn.
    pose proof (good_V Gt (i := 0%nat) ltac:(lia)) as V0. pose proof (good_V Gt (i := k) ltac:(lia)) as Vk.
    split; [split|split; auto].
    - rewrite nth_upd_same by lia. apply Forall2_upd; [apply Gt|]. split; [|apply PF].
      apply project_V. apply vadd_len; [apply V0|]. apply vscale_len, vsub_len; [apply Vk|apply V0].
    - now rewrite upd_length.
    - rewrite <- E0. apply nth_upd_other. lia.
  Qed.

  Lemma move_good s : good s -> good (move nb rho chi psi sigma dim f s) /\ nth 0 (fsim (move nb rho chi psi sigma dim f s)) 0 = nth 0 (fsim s) 0
     /\ first_iter (move nb rho chi psi sigma dim f s) = first_iter s.
  Proof.
    intro G. pose proof (good_V G (i := dim) ltac:(lia)) as VL.
    assert (LX : List.length (map (fun q => q / inject_Z (Z.of_nat dim)) (vsum (firstn dim (sim s)))) = dim).
    { rewrite map_length. apply vsum_len.
      - destruct (good_len G). destruct (sim s); [discriminate|]. destruct dim; [lia|]. discriminate.
      - apply Forall_forall. intros v I. assert (In v (sim s)) by (rewrite <- (firstn_skipn dim); apply in_or_app; auto).
        apply In_nth_error in H. destruct H as [i Hi]. assert (i < List.length (sim s))%nat by (apply nth_error_Some; congruence).
        apply (nth_error_nth _ _ []) in Hi. rewrite <- Hi. apply (good_V G). destruct (good_len G). lia. }
    unfold move, eval. cbn zeta. set (xbar := map _ _) in *. set (last := nth dim (sim s) []) in *. destruct VL as [VL _].
    set (st w c := NM w (ngrad s) (sim s) (fsim s) (first_iter s) c (nsweep s)).
    assert (GS : forall w c, good (st w c)) by (intros; exact G).
    assert (SL : forall w c x, V x -> let s' := set_last (st w c) x (f x) in good s' /\ nth 0 (fsim s') 0 = nth 0 (fsim s) 0 /\ first_iter s' = first_iter s).
    { intros w c x Vx s'. destruct (@set_last_good (st w c) x (f x) (GS w c) Vx (PF x)) as [A B]. split; auto. }
    assert (SH : forall w c, let s' := shrink nb sigma dim f (st w c) in good s' /\ nth 0 (fsim s') 0 = nth 0 (fsim s) 0 /\ first_iter s' = first_iter s).
    { intros w c s'. exact (shrink_good (GS w c)). }
    cbn [fsim sim nw ngrad first_iter ncalls nsweep].
    assert (VR : V (nm_project nb (vsub (vscale (1 + rho) xbar) (vscale rho last)))) by (apply project_V, vsub_len; apply vscale_len; auto).
    assert (VE : V (nm_project nb (vadd xbar (vscale (rho * chi) (vsub xbar last))))) by (apply project_V, vadd_len; auto; apply vscale_len, vsub_len; auto).
    assert (VC : V (nm_project nb (vadd xbar (vscale (psi * rho) (vsub xbar last))))) by (apply project_V, vadd_len; auto; apply vscale_len, vsub_len; auto).
    assert (VCC : V (nm_project nb (vadd xbar (vscale psi (vsub last xbar))))) by (apply project_V, vadd_len; auto; apply vscale_len, vsub_len; auto).
    destruct (qlt _ (nth 0 (fsim s) 0)); [destruct (qlt _ _); apply SL; auto|].
    destruct (qlt _ (nth (dim - 1) (fsim s) 0)); [apply SL; auto|].
    destruct (qlt _ (nth dim (fsim s) 0)); [destruct (Qle_bool _ _)|destruct (qlt _ _)].
    - apply SL; auto.
    - apply SH.
    - apply SL; auto.
    - apply SH.
  Qed.

  Lemma resort_good s : good s -> good (resort argsort s) /\ StronglySorted Qle (fsim (resort argsort s)) /\
     (forall v l, In (v, l) (combine (sim (resort argsort s)) (fsim (resort argsort s))) -> In (v, l) (combine (sim s) (fsim s))) /\
     nth 0 (fsim (resort argsort s)) 0 <= nth 0 (fsim s) 0.
  Proof.
    intro G. destruct (good_len G) as [L1 L2]. destruct (AS (fsim s)) as [PM SO]. unfold resort, good. cbn.
    assert (FI : Forall (fun i => (i < List.length (sim s))%nat) (argsort (fsim s))).
    { apply Forall_forall. intros i I. rewrite L1, <- L2. apply (Permutation_in _ PM) in I. apply in_seq in I. lia. }
    split; [split|split; [exact SO|split]].
    - apply Forall2_take; [apply G|exact FI].
    - unfold take. rewrite map_length, (Permutation_length PM), seq_length. exact L2.
    - intros v l I. unfold take in I. assert (C : forall ind, combine (map (fun i => nth i (sim s) []) ind) (map (fun i => nth i (fsim s) 0) ind) = map (fun i => (nth i (sim s) [], nth i (fsim s) 0)) ind)
        by (clear; induction ind; cbn; congruence).
      rewrite C in I. apply in_map_iff in I. destruct I as (i & E & I). rewrite Forall_forall in FI. specialize (FI i I).
      rewrite <- combine_nth in E by lia. rewrite <- E. apply nth_In. rewrite combine_length. lia.
    - assert (I : In 0%nat (argsort (fsim s))) by (apply (Permutation_in _ (Permutation_sym PM)), in_seq; lia).
      assert (I2 : In (nth 0 (fsim s) 0) (take 0 (fsim s) (argsort (fsim s)))) by (unfold take; apply in_map_iff; exists 0%nat; auto).
      destruct (take 0 (fsim s) (argsort (fsim s))) as [|h t]; [destruct I2|]. cbn. destruct I2 as [<-|I2]; [apply Qle_refl|].
      inversion SO; subst. rewrite Forall_forall in H2. auto.
  Qed.

  Lemma first_good s : List.length (sim s) = S dim -> List.length (fsim s) = S dim -> Forall V (sim s) ->
    good (first argsort dim f s) /\ first_iter (first argsort dim f s) = false.
  Proof.
    intros L1 L2 FV. unfold first. cbn zeta. set (body := fun s k => _).
    assert (K : forall n k s, (k + n = S dim)%nat -> List.length (sim s) = S dim -> List.length (fsim s) = S dim -> Forall V (sim s) ->
       Forall2 R (firstn k (sim s)) (firstn k (fsim s)) -> good (fold_left body (seq k n) s)).
    { induction n; intros k s0 E A1 A2 FV0 F; cbn [seq fold_left].
      - unfold good. replace k with (List.length (sim s0)) in F at 1 by lia. replace k with (List.length (fsim s0)) in F by lia.
        rewrite !firstn_all in F. auto.
      - apply IHn; cbn; auto; [lia|now rewrite upd_length|].
        assert (X : forall A (l : list A) d, (k < List.length l)%nat -> firstn (S k) l = firstn k l ++ [nth k l d]).
        { clear. induction k; intros A [|x l] d H; cbn in *; try lia; auto. f_equal. apply IHk. lia. }
        change (Forall2 R (firstn (S k) (sim s0)) (firstn (S k) (upd (fsim s0) k (f (nth k (sim s0) []))))).
        rewrite (X _ (sim s0) []) by lia. rewrite (X _ (upd (fsim s0) k (f (nth k (sim s0) []))) 0) by (rewrite upd_length; lia).
        rewrite nth_upd_same by lia. apply Forall2_app.
        + replace (firstn k (upd (fsim s0) k (f (nth k (sim s0) [])))) with (firstn k (fsim s0)); auto.
          clear. generalize (f (nth k (sim s0) [])) as v. generalize (fsim s0) as l. induction k; intros [|x l] v; cbn; auto. f_equal; auto.
        + constructor; [|constructor]. split; auto. rewrite Forall_forall in FV0. apply FV0, nth_In. lia. }
    assert (G : good (fold_left body (seq 0 (dim + 1)) s)) by (apply K; auto; [lia|constructor]).
    split; [|reflexivity]. exact (proj1 (resort_good G)).
  Qed.

  Lemma head_min h t : StronglySorted Qle (h :: t) -> fold_left qmin t h == h.
  Proof.
    intro SS. inversion SS; subst. clear SS H1. assert (G : forall a, a <= h -> a == h -> fold_left qmin t a == h).
    { induction H2; intros a A1 A2; cbn; auto. apply IHForall; unfold qmin; destruct (Qle_bool a x) eqn:E; qb; lra. }
    apply G; lra.
  Qed.

  Definition start_ok (s : nm) : Prop :=
    if first_iter s then List.length (sim s) = S dim /\ List.length (fsim s) = S dim /\ Forall V (sim s) else good s.

  Lemma backward_good mask s l s' : nm_backward nb rho chi psi sigma xatol fatol argsort dim f mask s = (l, s') -> start_ok s ->
    good s' /\ first_iter s' = false /\ StronglySorted Qle (fsim s') /\ l == nth 0 (fsim s') 0 /\
    (first_iter s = false -> l <= nth 0 (fsim s) 0) /\ ngrad s' = map2 (fun x m => x * b2q m) (nth 0 (sim s') []) mask /\ nsweep s' = nsweep s.
  Proof.
    unfold nm_backward. intros E ST.
    assert (NS : forall body n k s, (forall s j, nsweep (body s j) = nsweep s) -> nsweep (fold_left body (seq k n) s) = nsweep s).
    { clear. intros body n. induction n; intros k s0 H; cbn; auto. rewrite IHn; auto. }
    set (s1 := if first_iter s then first argsort dim f s else s) in *.
    assert (G1 : good s1 /\ first_iter s1 = false /\ (first_iter s = false -> s1 = s) /\ nsweep s1 = nsweep s).
    { unfold start_ok in ST. unfold s1. destruct (first_iter s) eqn:FI; [|auto].
      destruct ST as (A & B & C). destruct (first_good A B C) as [D1 D2]. split; [exact D1|split; [exact D2|split; [discriminate|]]].
      unfold first. cbn. rewrite NS; auto. }
    destruct G1 as (G1 & F1 & EQ & N1). set (s2 := if converged xatol fatol s1 then s1 else move nb rho chi psi sigma dim f s1) in *.
    assert (G2 : good s2 /\ nth 0 (fsim s2) 0 = nth 0 (fsim s1) 0 /\ first_iter s2 = first_iter s1 /\ nsweep s2 = nsweep s1).
    { unfold s2. destruct (converged xatol fatol s1); [auto|]. destruct (move_good G1) as (A & B & C). split; [exact A|split; [exact B|split; [exact C|]]].
      unfold move, eval, shrink. cbn zeta. cbn [fsim sim nw ngrad first_iter ncalls nsweep].
      repeat (match goal with |- nsweep (if ?b then _ else _) = _ => destruct b end); try reflexivity; now rewrite NS. }
    destruct G2 as (G2 & H2 & FI2 & N2). destruct (resort_good G2) as (G3 & SO & _ & HL). cbn zeta in E. injection E as <- <-.
    assert (HD : fold_left qmin (tl (fsim (resort argsort s2))) (nth 0 (fsim (resort argsort s2)) 0) == nth 0 (fsim (resort argsort s2)) 0).
    { destruct (good_len G3) as [_ L]. destruct (fsim (resort argsort s2)) as [|h t]; [discriminate|]. exact (head_min SO). }
    split; [exact G3|]. split; [cbn; congruence|]. split; [exact SO|]. split; [exact HD|]. split; [|split; [reflexivity|cbn; congruence]].
    intro FI. rewrite HD. rewrite <- (EQ FI). rewrite <- H2. exact HL.
  Qed.
End NMF.

(** ** histories *)
Section Hist.
  Variable nb : option (list (Q * Q)).
  Variables rho chi psi sigma xatol fatol : Q.
  Variable argsort : list Q -> list nat.
  Variable dim : nat.
  (** [history fs last s]: [s] is reached from a fresh optimiser by any sequence of [backward] calls (their batch losses
      are [fs], newest first; [last] is the value the newest one returned) and [step] calls *)
  Inductive history : list (vec -> Q) -> option Q -> nm -> Prop :=
  | H_new w sx s : List.length w = dim -> nm_new nb w sx = Ok s -> history [] None s
  | H_back fs last s f mask l s' : history fs last s -> nm_backward nb rho chi psi sigma xatol fatol argsort dim f mask s = (l, s') ->
      history (f :: fs) (Some l) s'
  | H_step fs last s : history fs last s -> history fs last (nm_step nb s).

  (** every stored loss was computed at its vertex by one of the batches so far *)
  Definition seen (fs : list (vec -> Q)) (v : vec) (l : Q) : Prop := exists f, In f fs /\ l = f v.

  Hypothesis AS : is_argsort argsort.
  Hypothesis DIM : (1 <= dim)%nat.

  Lemma new_ok w sx s : List.length w = dim -> nm_new nb w sx = Ok s -> good_bounds nb dim /\ first_iter s = true /\
    List.length (sim s) = S dim /\ List.length (fsim s) = S dim /\ Forall (in_bounds nb dim) (sim s).
  Proof.
    intros L H. unfold nm_new in H. destruct (match nb with Some _ => _ | None => _ end) eqn:B; [discriminate|].
    assert (GB : good_bounds nb dim).
    { unfold good_bounds. destruct nb as [bs|]; auto. apply orb_false_elim in B. destruct B as [B1 B2].
      apply negb_false_iff, Nat.eqb_eq in B1. split; [congruence|]. apply Forall_forall. intros x I.
      destruct (Qle_bool (fst x) (snd x)) eqn:E; [now qb|]. exfalso. assert (existsb (fun lh => negb (Qle_bool (fst lh) (snd lh))) bs = true); [|congruence].
      apply existsb_exists. exists x. now rewrite E. }
    split; auto. assert (LP : List.length (nm_project nb w) = dim).
    { apply (@project_V nb dim GB w L). }
    assert (PV : forall l, Forall (fun v => List.length v = dim) l -> Forall (in_bounds nb dim) (map (nm_project nb) l)).
    { intros l F. apply Forall_map. eapply Forall_impl; [|exact F]. intros v. now apply project_V. }
    rewrite LP in H. destruct sx as [sx|].
    - destruct (_ || _) eqn:C in H; [discriminate|]. apply orb_false_elim in C. destruct C as [C1 C2]. apply negb_false_iff, Nat.eqb_eq in C1.
      injection H as <-. cbn [sim fsim first_iter]. rewrite !map_length, seq_length. repeat split; try lia. apply PV. apply Forall_forall. intros v I.
      destruct (List.length v =? dim)%nat eqn:E; [now apply Nat.eqb_eq|]. exfalso.
      assert (existsb (fun v => negb (List.length v =? dim)%nat) sx = true); [|congruence]. apply existsb_exists. exists v. now rewrite E.
    - injection H as <-. cbn [sim fsim first_iter]. rewrite map_length. cbn [List.length]. rewrite !map_length, !seq_length. repeat split; try lia.
      apply (PV (_ :: _)). constructor; auto. apply Forall_map. apply Forall_forall. intros. now rewrite upd_length.
  Qed.

  Lemma history_ok fs last s : history fs last s -> good_bounds nb dim /\
    (if first_iter s then last = None /\ List.length (sim s) = S dim /\ List.length (fsim s) = S dim /\ Forall (in_bounds nb dim) (sim s)
     else Forall2 (fun v l => in_bounds nb dim v /\ seen fs v l) (sim s) (fsim s) /\ List.length (sim s) = S dim /\ StronglySorted Qle (fsim s) /\
          exists l, last = Some l /\ l == nth 0 (fsim s) 0).
  Proof.
    induction 1 as [w sx s L N|fs last s f mask l s' Hh IH E|fs last s Hh IH].
    - destruct (new_ok L N) as (A & B & C & D & F). rewrite B. auto.
    - destruct IH as [GB IH]. split; auto.
      destruct (@backward_good nb rho chi psi sigma xatol fatol argsort dim AS DIM GB f (seen (f :: fs)) ltac:(intro v; exists f; cbn; auto) mask s l s' E) as (G & FI & SO & HL & _).
      + unfold start_ok. destruct (first_iter s) eqn:FI; [tauto|]. destruct IH as (F & L & _). split; auto.
        eapply Forall2_mono; [|exact F]. cbn. intros a b (V & g & I & E2). split; auto. exists g. cbn. auto.
      + rewrite FI. destruct G as [G1 G2]. split; auto. split; auto. split; auto. exists l. auto.
    - exact IH.
  Qed.

  Lemma history_backward fs last s f mask l s' : history fs last s -> nm_backward nb rho chi psi sigma xatol fatol argsort dim f mask s = (l, s') ->
    (forall l0, last = Some l0 -> l <= l0) /\
    Forall2 (fun v x => in_bounds nb dim v /\ seen (f :: fs) v x) (sim s') (fsim s') /\ List.length (sim s') = S dim /\ StronglySorted Qle (fsim s') /\
    (forall x, In x (fsim s') -> l <= x) /\ l == nth 0 (fsim s') 0.
  Proof.
    intros Hh E. pose proof (history_ok (H_back Hh E)) as [GB K]. destruct (history_ok Hh) as [_ K0].
    destruct (@backward_good nb rho chi psi sigma xatol fatol argsort dim AS DIM GB f (seen (f :: fs)) ltac:(intro v; exists f; cbn; auto) mask s l s' E) as (G & FI & SO & HL & MO & _).
    { unfold start_ok. destruct (first_iter s) eqn:FI; [tauto|]. destruct K0 as (F & L & _). split; auto.
      eapply Forall2_mono; [|exact F]. cbn. intros a b (V & g & I & E2). split; auto. exists g. cbn. auto. }
    rewrite FI in K. destruct K as (K1 & K2 & K3 & _). split; [|split; [exact K1|split; [exact K2|split; [exact K3|split; [|exact HL]]]]].
    - intros l0 ->. destruct (first_iter s); [destruct K0; discriminate|]. destruct K0 as (_ & _ & _ & lx & [= ->] & E2). rewrite E2. auto.
    - intros x I. rewrite HL. destruct (fsim s') as [|h t]; [destruct I|]. cbn. destruct I as [<-|I]; [apply Qle_refl|]. inversion SO; subst. rewrite Forall_forall in H2. auto.
  Qed.

  (** the weights after [step]: the best vertex, with the absent parameters replaced by project(0) *)
  Lemma backward_step_weights fs last s f mask l s' i x b : history fs last s -> nm_backward nb rho chi psi sigma xatol fatol argsort dim f mask s = (l, s') ->
    nth_error (nth 0 (sim s') []) i = Some x -> nth_error mask i = Some b ->
    exists y, nth_error (nw (nm_step nb s')) i = Some y /\ (b = true -> y == x) /\
      (b = false -> match nb with None => y == 0 | Some bs => exists lo hi, nth_error bs i = Some (lo, hi) /\ y == qclip lo hi 0 end).
  Proof.
    intros Hh E Hx Hb. pose proof (history_ok (H_back Hh E)) as [GB K]. destruct (history_ok Hh) as [_ K0].
    destruct (@backward_good nb rho chi psi sigma xatol fatol argsort dim AS DIM GB f (seen (f :: fs)) ltac:(intro v; exists f; cbn; auto) mask s l s' E) as (G & FI & SO & HL & MO & NG & _).
    { unfold start_ok. destruct (first_iter s) eqn:FI; [tauto|]. destruct K0 as (F & L & _). split; auto.
      eapply Forall2_mono; [|exact F]. cbn. intros a c (V & g & I & E2). split; auto. exists g. cbn. auto. }
    pose proof (good_V DIM G (i := 0%nat) ltac:(lia)) as [VL VB]. cbn. unfold nm_project. rewrite NG. destruct nb as [bs|].
    - assert (exists lo hi, nth_error bs i = Some (lo, hi) /\ lo <= x <= hi) as (lo & hi & Eb & B).
      { clear -VB Hx. revert i Hx. induction VB as [|y [lo hi] l m Hq]; intros [|i] Hx; cbn in *; try discriminate; eauto.
        injection Hx as <-. eauto. }
      rewrite !map2_nth, Hx, Hb, Eb. eexists. split; [reflexivity|]. cbn. split; intros ->; cbn.
      + eapply Qeq_trans; [|exact (qclip_id B)]. apply qclip_eq. ring.
      + exists lo, hi. split; auto. apply qclip_eq. ring.
    - rewrite !map2_nth, Hx, Hb. eexists. split; [reflexivity|]. split; intros ->; cbn; ring.
  Qed.
End Hist.

(** insertion argsort, for the examples *)
Section ISort.
  Variable ins : list Q -> nat -> list nat -> list nat.
  Variable isort : list Q -> list nat.
  Hypothesis I0 : forall l i, ins l i [] = [i].
  Hypothesis I1 : forall l i j m, ins l i (j :: m) = if Qle_bool (nth i l 0) (nth j l 0) then i :: j :: m else j :: ins l i m.
  Hypothesis IS : forall l, isort l = fold_right (ins l) [] (seq 0 (List.length l)).
  Lemma ins_perm l i m : Permutation (ins l i m) (i :: m).
  Proof. induction m; [now rewrite I0|]. rewrite I1. destruct (Qle_bool _ _); auto. rewrite IHm. constructor. Qed.
  Lemma ins_sorted l i m : StronglySorted Qle (take 0 l m) -> StronglySorted Qle (take 0 l (ins l i m)).
  Proof.
    induction m as [|j m IH]; intro H; [rewrite I0; repeat constructor|]. rewrite I1. inversion H; subst. destruct (Qle_bool _ _) eqn:E; qb.
    - cbn. constructor; auto. constructor; auto. eapply Forall_impl; [|eassumption]. cbn. intros; lra.
    - cbn. constructor; [auto|]. apply Forall_forall. intros x Ix. unfold take in Ix. apply in_map_iff in Ix. destruct Ix as (k & <- & Ik).
      apply (Permutation_in _ (ins_perm l i m)) in Ik. destruct Ik as [<-|Ik]; [lra|]. rewrite Forall_forall in H3. apply H3. unfold take. apply in_map_iff. eauto.
  Qed.
  Lemma isort_spec : is_argsort isort.
  Proof.
    intro l. rewrite IS. generalize (seq 0 (List.length l)) as m. induction m; cbn [fold_right]; [split; constructor|]. destruct IHm as [A B]. split.
    - rewrite ins_perm. now constructor.
    - now apply ins_sorted.
  Qed.
End ISort.
