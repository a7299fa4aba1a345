(** [to_tn] connects the wires of the diagram (proofs only). *)
From Verif Require Import PyBase PyFacts DiagMisc GDiag GDiagSpec GDiagFacts QModel TnModel TnSpec.
Set Implicit Arguments. Unset Strict Implicit.

Lemma NoDup_app_remove_r A (l l' : list A) : NoDup (l ++ l') -> NoDup l.
Proof. induction l as [|x l IH]; cbn; intro H; [constructor|]. inversion H; subst. constructor; [intro; apply H2; apply in_or_app; auto|auto]. Qed.
Lemma NoDup_app A (l l' : list A) : NoDup l -> NoDup l' -> (forall a, In a l -> ~ In a l') -> NoDup (l ++ l').
Proof. induction l as [|x l IH]; cbn; intros H1 H2 H3; [auto|]. inversion H1; subst. constructor; [intro H; apply in_app_or in H; destruct H; [auto|apply (H3 x); auto]|apply IH; auto]. Qed.
Ltac perm1 := lazymatch goal with
  | |- Permutation ?x ?x => reflexivity
  | |- Permutation (?x ++ ?r) (?x ++ ?s) => apply Permutation_app_head
  | |- Permutation (?x ++ ?r) ?s => transitivity (r ++ x); [apply Permutation_app_comm|]; rewrite <- ?app_assoc
  end.
Ltac perm := rewrite <- ?app_assoc; do 60 (try first [solve [reflexivity] | perm1]).
Notation tlayer := (list nat * tbox * list nat)%type.
Lemma leg_eqb_spec a b : reflect (a = b) (leg_eqb a b).
Proof.
  destruct a, b; cbn; try (constructor; congruence).
  - destruct (Nat.eqb_spec i i0), (Nat.eqb_spec s s0); cbn; constructor; congruence.
  - destruct (Nat.eqb_spec t t0), (Nat.eqb_spec k k0); cbn; constructor; congruence.
  - destruct (Nat.eqb_spec c c0), (Nat.eqb_spec i i0), (Nat.eqb_spec s s0); cbn; constructor; congruence.
  - destruct (Nat.eqb_spec t t0), (Nat.eqb_spec c c0), (Nat.eqb_spec k k0); cbn; constructor; congruence.
Qed.
Lemma dangling_spec cs e : dangling cs e = true <-> ~ In e (ends cs).
Proof.
  unfold dangling. rewrite negb_true_iff. split.
  - intros H Hin. apply in_flat_map in Hin. destruct Hin as ([a b] & Hc & He). assert (existsb (fun c => leg_eqb e (fst c) || leg_eqb e (snd c)) cs = true); [|congruence].
    apply existsb_exists. exists (a, b). split; auto. cbn in *. destruct He as [->|[->|[]]]; [destruct (leg_eqb_spec e e)|destruct (leg_eqb_spec e e)]; rewrite ?orb_true_r; auto; congruence.
  - intro H. destruct (existsb _ cs) eqn:E; auto. apply existsb_exists in E. destruct E as ([a b] & Hc & He). exfalso. apply H. apply in_flat_map. exists (a, b). split; auto. cbn in *.
    apply orb_true_iff in He. destruct (leg_eqb_spec e a), (leg_eqb_spec e b); subst; intuition congruence.
Qed.
Lemma connect_ok cs a b : NoDup (a :: b :: ends cs) -> connect cs a b = Ok (cs ++ [(a, b)]).
Proof.
  intro N. inversion N as [|x l N1 N2]; subst. inversion N2 as [|x l N3 N4]; subst. unfold connect.
  rewrite (proj2 (dangling_spec cs a)) by (intro; apply N1; now right). rewrite (proj2 (dangling_spec cs b)) by auto. destruct (leg_eqb_spec a b); [subst; exfalso; apply N1; now left|reflexivity].
Qed.
Lemma ends_app a b : ends (a ++ b) = ends a ++ ends b. Proof. apply flat_map_app. Qed.
(** connecting several wires *)
Lemma connects_ok scan k t legs : forall m s cs, k + s + m <= List.length scan -> s + m <= legs -> NoDup (ends cs ++ firstn m (skipn (k + s) scan) ++ map (LBox t) (seq s m)) ->
  foldM (fun cs i => do u <- get scan (k + i); if i <? legs then connect cs u (LBox t i) else Err IndexError) (seq s m) cs =
  Ok (cs ++ combine (firstn m (skipn (k + s) scan)) (map (LBox t) (seq s m))).
Proof.
  induction m as [|m IH]; intros s cs H1 H2 N; cbn [seq foldM].
  - cbn. now rewrite app_nil_r.
  - assert (exists u tl, skipn (k + s) scan = u :: tl) as (u & tl & E). { destruct (skipn (k + s) scan) eqn:E; eauto. exfalso. assert (L : List.length (skipn (k + s) scan) = 0) by now rewrite E. rewrite skipn_length in L. lia. }
    assert (Eu : nth_error scan (k + s) = Some u). { rewrite <- (firstn_skipn (k + s) scan), nth_error_app2, firstn_length_le by (rewrite ?firstn_length; lia). rewrite Nat.sub_diag, E. reflexivity. }
    assert (E' : skipn (k + S s) scan = tl). { rewrite Nat.add_succ_r. rewrite <- (firstn_skipn (k + s) scan), E. replace (S (k + s)) with ((k + s) + 1) by lia. rewrite skipn_app, skipn_all2, firstn_length_le by (rewrite ?firstn_length; lia). replace (k + s + 1 - (k + s)) with 1 by lia. reflexivity. }
    rewrite E in *. cbn [firstn seq map combine] in *. unfold get. rewrite Eu. cbn [bind]. destruct (Nat.ltb_spec s legs); [|lia].
    assert (P : Permutation (ends cs ++ (u :: firstn m tl) ++ LBox t s :: map (LBox t) (seq (S s) m)) (u :: LBox t s :: ends cs ++ firstn m tl ++ map (LBox t) (seq (S s) m))).
    { cbn [app]. rewrite <- Permutation_middle. constructor. rewrite (app_assoc (ends cs)). rewrite <- Permutation_middle, <- app_assoc. reflexivity. }
    rewrite P in N. rewrite connect_ok.
    2:{ eapply NoDup_app_remove_r with (l' := firstn m tl ++ map (LBox t) (seq (S s) m)). exact N. }
    cbn [bind]. rewrite IH; [|lia|lia|].
    + rewrite E', <- app_assoc. reflexivity.
    + rewrite E', ends_app. cbn [ends flat_map app fst snd]. rewrite <- app_assoc. cbn [app]. rewrite <- Permutation_middle, <- Permutation_middle. exact N.
Qed.
Lemma get_ok {A} (l : list A) i x : nth_error l i = Some x -> get l i = Ok x. Proof. unfold get. now intros ->. Qed.

Lemma map_seq_from A (f : nat -> A) c : forall k, map f (seq k c) = map (fun i => f (k + i)) (seq 0 c).
Proof. induction c as [|c IH]; intro k; [reflexivity|]. cbn. rewrite Nat.add_0_r. f_equal. rewrite IH. rewrite <- seq_shift, map_map. apply map_ext. intro. now rewrite Nat.add_succ_r. Qed.
Lemma ends_combine : forall B L, List.length B = List.length L -> Permutation (ends (combine B L)) (B ++ L).
Proof. induction B as [|u B IH]; intros [|v l]; try discriminate; [reflexivity|]. intros [= L]. cbn. constructor. rewrite IH by auto. apply Permutation_middle. Qed.
Lemma map_pair (f g : nat -> leg) k m : forall s, map (fun i => (f (k + i), g i)) (seq s m) = combine (map f (seq (k + s) m)) (map g (seq s m)).
Proof. induction m as [|m IH]; intro s; [reflexivity|]. cbn. f_equal. rewrite IH. now rewrite Nat.add_succ_r. Qed.
Section Run.
  Variable ls : list tlayer.
  (** the scan after [t] layers, on a type of length [n] *)
  Definition scan_at (t n : nat) : list leg := map (source ls t) (seq 0 n).
  Lemma scan_split t a b : scan_at t (a + b) = scan_at t a ++ map (source ls t) (seq a b).
  Proof. unfold scan_at. now rewrite seq_app, map_app. Qed.
  Lemma source_step t l b r : nth_error ls t = Some (l, b, r) -> forall p,
    source ls (S t) p = let k := List.length l in
      if p <? k then source ls t p else if p <? k + List.length (t_cod b) then
            match b with TSwap _ _ => source ls t (if p =? k then S k else k) | _ => LBox t (List.length (t_dom b) + (p - k)) end
          else source ls t (p + List.length (t_dom b) - List.length (t_cod b)).
  Proof. intros E p. cbn [source]. now rewrite E. Qed.
  (** the next scan from the last one *)
  Lemma scan_next t l b r : nth_error ls t = Some (l, b, r) ->
    scan_at (S t) (List.length (l ++ t_cod b ++ r)) =
      scan_at t (List.length l) ++
      match b with TSwap _ _ => [source ls t (S (List.length l)); source ls t (List.length l)] | _ => map (LBox t) (seq (List.length (t_dom b)) (List.length (t_cod b))) end ++
      map (source ls t) (seq (List.length l + List.length (t_dom b)) (List.length r)).
  Proof.
    intros E. rewrite !app_length. set (k := List.length l). set (c := List.length (t_cod b)). set (m := List.length (t_dom b)). rewrite scan_split. rewrite seq_app, map_app. f_equal; [|f_equal].
    - unfold scan_at. apply map_ext_in. intros p Hp. apply in_seq in Hp. rewrite (source_step E). cbn zeta. fold k. destruct (Nat.ltb_spec p k); [reflexivity|lia].
    - rewrite (map_seq_from (source ls (S t)) c k). assert (H' : forall i, i < c -> source ls (S t) (k + i) = match b with TSwap _ _ => source ls t (if i =? 0 then S k else k) | _ => LBox t (m + i) end).
      { intros i Hi. rewrite (source_step E). cbn zeta. fold k c m. destruct (Nat.ltb_spec (k + i) k); [lia|]. destruct (Nat.ltb_spec (k + i) (k + c)); [|lia].
        destruct b; try (f_equal; lia). destruct (Nat.eqb_spec (k + i) k), (Nat.eqb_spec i 0); try lia; reflexivity. }
      assert (G : forall f : nat -> leg, (forall i, i < c -> source ls (S t) (k + i) = f i) -> map (fun i => source ls (S t) (k + i)) (seq 0 c) = map f (seq 0 c)).
      { intros f Hf. apply map_ext_in. intros i Hi. apply in_seq in Hi. apply Hf. lia. }
      rewrite (G _ H'). 
      destruct b; try (symmetry; apply (map_seq_from (LBox t))). reflexivity.
    - assert (H : forall n s s' f g, (forall i, i < n -> f (s + i) = g (s' + i) :> leg) -> map f (seq s n) = map g (seq s' n)).
      { clear. induction n as [|n IH]; intros s s' f g H; [reflexivity|]. cbn. f_equal; [specialize (H 0); rewrite !Nat.add_0_r in H; apply H; lia|]. apply IH. intros i Hi. specialize (H (S i)). rewrite !Nat.add_succ_r in H. apply H. lia. }
      apply H. intros i Hi. rewrite (source_step E). cbn zeta. fold k c m. destruct (Nat.ltb_spec (k + c + i) k); [lia|]. destruct (Nat.ltb_spec (k + c + i) (k + c)); [lia|]. f_equal. lia.
  Qed.
  Definition conns_to (t : nat) : list (leg * leg) := flat_map (wires_into ls) (seq 0 t).
  Definition nodes_to (t : nat) : list nat := filter (has_node ls) (seq 0 t).
  Definition legs_of (t : nat) : list leg := match nth_error ls t with Some (_, b, _) => if has_node ls t then map (LBox t) (seq 0 (List.length (t_dom b) + List.length (t_cod b))) else [] | None => [] end.
  Definition legs_to (n t : nat) : list leg := map (fun i => LIn i 1) (seq 0 n) ++ flat_map legs_of (seq 0 t).
  Lemma legs_of_box s e : In e (legs_of s) -> exists j, e = LBox s j.
  Proof. unfold legs_of. intros He. destruct (nth_error ls s) as [[[l b] r]|]; [|contradiction]. destruct (has_node ls s); [|contradiction]. apply in_map_iff in He. destruct He as (j & <- & _). eauto. Qed.
  Lemma legs_nodup n t : NoDup (legs_to n t).
  Proof.
    unfold legs_to. assert (N1 : NoDup (map (fun i => LIn i 1) (seq 0 n))) by (apply FinFun.Injective_map_NoDup; [intros ? ? [= ->]; auto|apply seq_NoDup]).
    assert (G : forall t s, NoDup (flat_map legs_of (seq s t)) /\ forall e, In e (flat_map legs_of (seq s t)) -> exists u j, e = LBox u j /\ s <= u).
    { clear. induction t as [|t IH]; intro s; cbn; [split; [constructor|contradiction]|]. destruct (IH (S s)) as [N B].
      assert (B0 : forall e, In e (legs_of s) -> exists j, e = LBox s j). { unfold legs_of. intros e He. destruct (nth_error ls s) as [[[l b] r]|]; [|contradiction]. destruct (has_node ls s); [|contradiction]. apply in_map_iff in He. destruct He as (j & <- & _). eauto. }
      split.
      - apply NoDup_app; auto.
        + unfold legs_of. destruct (nth_error ls s) as [[[l b] r]|]; [|constructor]. destruct (has_node ls s); [|constructor]. apply FinFun.Injective_map_NoDup; [intros ? ? [= ->]; auto|apply seq_NoDup].
        + intros e He1 He2. apply B0 in He1. destruct He1 as [j ->]. apply B in He2. destruct He2 as (u & i & [= <- <-] & Hu). lia.
      - intros e He. apply in_app_or in He. destruct He as [He|He]; [apply B0 in He; destruct He as [j ->]; eauto|apply B in He; destruct He as (u & j & -> & Hu); exists u, j; split; auto; lia]. }
    destruct (G t 0) as [N2 B2]. apply NoDup_app; auto. intros e He1 He2. apply in_map_iff in He1. destruct He1 as (i & <- & _). apply B2 in He2. destruct He2 as (u & j & He & _). discriminate.
  Qed.
  Lemma step_ok n t l b r : nth_error ls t = Some (l, b, r) ->
    Permutation (ends (conns_to t) ++ scan_at t (List.length (l ++ t_dom b ++ r))) (legs_to n t) ->
    tn_step (Net (nodes_to t) (conns_to t) (scan_at t (List.length (l ++ t_dom b ++ r)))) (t, (l, b, r)) =
      Ok (Net (nodes_to (S t)) (conns_to (S t)) (scan_at (S t) (List.length (l ++ t_cod b ++ r)))) /\
    Permutation (ends (conns_to (S t)) ++ scan_at (S t) (List.length (l ++ t_cod b ++ r))) (legs_to n (S t)).
  Proof.
    intros E P. rewrite (scan_next E). assert (EC : conns_to (S t) = conns_to t ++ wires_into ls t) by (unfold conns_to; rewrite seq_S, flat_map_app; cbn; now rewrite app_nil_r).
    assert (EL : legs_to n (S t) = legs_to n t ++ legs_of t) by (unfold legs_to; rewrite seq_S, flat_map_app; cbn; now rewrite app_nil_r, app_assoc).
    assert (EN : nodes_to (S t) = nodes_to t ++ (if has_node ls t then [t] else [])) by (unfold nodes_to; rewrite seq_S, filter_app; reflexivity).
    set (k := List.length l) in *. set (m := List.length (t_dom b)) in *. set (c := List.length (t_cod b)) in *.
    assert (ES : scan_at t (List.length (l ++ t_dom b ++ r)) = scan_at t k ++ map (source ls t) (seq k m) ++ map (source ls t) (seq (k + m) (List.length r))).
    { rewrite !app_length. fold k m. rewrite scan_split, seq_app, map_app. reflexivity. }
    rewrite ES in *. set (A := scan_at t k) in *. set (B := map (source ls t) (seq k m)) in *. set (C := map (source ls t) (seq (k + m) (List.length r))) in *.
    assert (LA : List.length A = k) by (unfold A, scan_at; now rewrite map_length, seq_length). assert (LB : List.length B = m) by (unfold B; now rewrite map_length, seq_length).
    assert (ND : NoDup (ends (conns_to t) ++ A ++ B ++ C)) by (rewrite P; apply legs_nodup).
    assert (FA : forall Y, firstn k (A ++ Y) = A) by (intro Y; rewrite firstn_app, firstn_all2, LA, Nat.sub_diag, app_nil_r by lia; reflexivity).
    assert (SA : forall Y, skipn k (A ++ Y) = Y) by (intro Y; rewrite skipn_app, skipn_all2, LA, Nat.sub_diag by lia; reflexivity).
    assert (SAB : skipn (k + m) (A ++ B ++ C) = C) by (rewrite app_assoc, skipn_app, skipn_all2, app_length, LA, LB, Nat.sub_diag by (rewrite app_length; lia); reflexivity).
    assert (general : t_legs b = m + c -> wires_into ls t = map (fun i => (source ls t (k + i), LBox t i)) (seq 0 m) -> has_node ls t = true ->
      (do cs <- foldM (fun cs i => do u <- get (A ++ B ++ C) (k + i); if i <? t_legs b then connect cs u (LBox t i) else Err IndexError) (seq 0 m) (conns_to t);
       Ok (Net (nodes_to t ++ [t]) cs (firstn k (A ++ B ++ C) ++ map (LBox t) (seq m (t_legs b - m)) ++ skipn (k + m) (A ++ B ++ C)))) =
      Ok (Net (nodes_to t ++ [t]) (conns_to t ++ wires_into ls t) (A ++ map (LBox t) (seq m c) ++ C)) /\
      Permutation (ends (conns_to t ++ wires_into ls t) ++ A ++ map (LBox t) (seq m c) ++ C) (legs_to n t ++ legs_of t)).
    { intros Hl Hw Hn. assert (FB : firstn m (skipn (k + 0) (A ++ B ++ C)) = B) by (rewrite Nat.add_0_r, SA, firstn_app, firstn_all2, LB, Nat.sub_diag, app_nil_r by lia; reflexivity).
      assert (LO : legs_of t = map (LBox t) (seq 0 m) ++ map (LBox t) (seq m c)) by (unfold legs_of; rewrite E, Hn; fold m c; now rewrite seq_app, map_app).
      assert (EW : wires_into ls t = combine B (map (LBox t) (seq 0 m))).
      { rewrite Hw. unfold B. rewrite map_pair, Nat.add_0_r. reflexivity. }
      assert (EE : Permutation (ends (combine B (map (LBox t) (seq 0 m)))) (B ++ map (LBox t) (seq 0 m))).
      { apply ends_combine. now rewrite map_length, seq_length. }
      split.
      - rewrite connects_ok.
        + rewrite FB, FA, SAB, EW. cbn [bind]. rewrite Hl. replace (m + c - m) with c by lia. reflexivity.
        + rewrite !app_length. lia.
        + lia.
        + rewrite FB. assert (ND2 : NoDup ((ends (conns_to t) ++ A ++ B ++ C) ++ legs_of t)).
          { rewrite P, <- EL. apply legs_nodup. }
          rewrite LO in ND2. rewrite app_assoc in ND2. apply NoDup_app_remove_r in ND2.
          apply (@Permutation_NoDup _ _ ((ends (conns_to t) ++ B ++ map (LBox t) (seq 0 m)) ++ A ++ C)) in ND2; [now apply NoDup_app_remove_r in ND2|].
          perm.
      - rewrite EW, ends_app, LO. rewrite EE. rewrite <- P. perm. }
    rewrite EC, EL, EN. unfold tn_step. cbn [gl_left gl_box fst snd n_scan n_conn n_nodes]. fold k.
    destruct b as [x y|x y|dd i o|nm s s'].
    - (* swap *) assert (EB : B = [source ls t k; source ls t (S k)]) by reflexivity.
      rewrite (@get_ok _ (A ++ B ++ C) k (source ls t k)) by (rewrite nth_error_app2, LA, Nat.sub_diag by lia; reflexivity). rewrite (@get_ok _ (A ++ B ++ C) (k + 1) (source ls t (S k))) by (rewrite nth_error_app2, LA by lia; replace (k + 1 - k) with 1 by lia; reflexivity).
      cbn [bind]. rewrite FA. change 2 with m. rewrite SAB. unfold wires_into, has_node, legs_of, has_node. rewrite E. rewrite !app_nil_r. split; [reflexivity|]. rewrite <- P. apply Permutation_app_head, Permutation_app_head. rewrite EB. cbn. constructor.
    - (* cup *) assert (EB : B = [source ls t k; source ls t (S k)]) by reflexivity.
      rewrite (@get_ok _ (A ++ B ++ C) k (source ls t k)) by (rewrite nth_error_app2, LA, Nat.sub_diag by lia; reflexivity). rewrite (@get_ok _ (A ++ B ++ C) (k + 1) (source ls t (S k))) by (rewrite nth_error_app2, LA by lia; replace (k + 1 - k) with 1 by lia; reflexivity).
      cbn [bind]. assert (PB : Permutation (ends (conns_to t) ++ A ++ B ++ C) (source ls t k :: source ls t (S k) :: ends (conns_to t) ++ A ++ C)).
      { rewrite EB. cbn [app]. rewrite (app_assoc (ends _)). rewrite <- Permutation_middle, <- Permutation_middle, <- app_assoc. reflexivity. }
      rewrite connect_ok.
      2:{ rewrite PB in ND. apply (@NoDup_app_remove_r _ (source ls t k :: source ls t (S k) :: ends (conns_to t)) (A ++ C)). exact ND. }
      cbn [bind]. rewrite FA. change 2 with m. rewrite SAB. unfold wires_into, has_node, legs_of, has_node. rewrite E. fold k. rewrite !app_nil_r. cbn [c t_cod List.length seq map app]. split; [reflexivity|].
      rewrite <- P, PB, ends_app. cbn [ends flat_map app fst snd]. rewrite <- app_assoc. cbn [app]. rewrite <- Permutation_middle, <- Permutation_middle. reflexivity.
    - destruct general as [G1 G2].
      + unfold m, c. cbn. now rewrite !repeat_length.
      + unfold wires_into. rewrite E. reflexivity.
      + unfold has_node. now rewrite E.
      + unfold has_node. rewrite E. split; [exact G1|exact G2].
    - destruct general as [G1 G2].
      + reflexivity.
      + unfold wires_into. rewrite E. reflexivity.
      + unfold has_node. now rewrite E.
      + unfold has_node. rewrite E. split; [exact G1|exact G2].
  Qed.
End Run.
Lemma enum_nth A (l : list A) : forall i, enumerate i l = combine (seq i (List.length l)) l.
Proof. induction l as [|x l IH]; intro i; cbn; [reflexivity|]. now rewrite IH. Qed.
Lemma run_ok ls n : forall rest pre d c, ls = pre ++ rest -> gchain t_dom t_cod d rest c ->
  Permutation (ends (conns_to ls (List.length pre)) ++ scan_at ls (List.length pre) (List.length d)) (legs_to ls n (List.length pre)) ->
  foldM tn_step (enumerate (List.length pre) rest) (Net (nodes_to ls (List.length pre)) (conns_to ls (List.length pre)) (scan_at ls (List.length pre) (List.length d))) =
    Ok (Net (nodes_to ls (List.length ls)) (conns_to ls (List.length ls)) (scan_at ls (List.length ls) (List.length c))) /\
  Permutation (ends (conns_to ls (List.length ls)) ++ scan_at ls (List.length ls) (List.length c)) (legs_to ls n (List.length ls)).
Proof.
  induction rest as [|[[l b] r] rest IH]; intros pre d c E Hc P.
  - cbn in Hc. subst d. rewrite app_nil_r in E. subst pre. split; auto.
  - cbn [gchain] in Hc. destruct Hc as [-> Hc]. assert (En : nth_error ls (List.length pre) = Some (l, b, r)) by (rewrite E, nth_error_app2, Nat.sub_diag by auto; reflexivity).
    destruct (@step_ok ls n (List.length pre) l b r En P) as [S1 S2]. cbn [enumerate foldM]. rewrite S1. cbn [bind].
    specialize (IH (pre ++ [(l, b, r)]) (l ++ t_cod b ++ r) c). rewrite app_length in IH. cbn [List.length] in IH. rewrite Nat.add_1_r in IH. apply IH; auto. now rewrite <- app_assoc.
Qed.
Lemma to_tn_ok d s t : gtyped t_dom t_cod d s t ->
  exists nodes conns open, to_tn d = Ok (nodes, conns, open) /\
    nodes = filter (has_node (glayers d)) (seq 0 (List.length (glayers d))) /\
    conns = flat_map (wires_into (glayers d)) (seq 0 (List.length (glayers d))) /\
    open = map (fun i => LIn i 0) (seq 0 (List.length s)) ++ map (source (glayers d) (List.length (glayers d))) (seq 0 (List.length t)) /\
    NoDup (ends conns ++ open) /\ Permutation (ends conns ++ open) (all_legs (List.length s) (glayers d)).
Proof.
  intros (W & <- & <-). unfold to_tn. set (ls := glayers d). set (n := List.length (gdom d)).
  destruct (@run_ok ls n ls [] (gdom d) (gcod d)) as [R1 R2]; auto.
  { cbn. unfold legs_to. cbn. rewrite app_nil_r. unfold scan_at. fold n. reflexivity. }
  cbn [List.length] in R1. unfold scan_at at 1 in R1. cbn [source] in R1. change (conns_to ls 0) with (@nil (leg * leg)) in R1. change (nodes_to ls 0) with (@nil nat) in R1. fold n in R1.
  assert (R1' : foldM tn_step (enumerate 0 ls) (Net [] [] (map (fun i => LIn i 1) (seq 0 n))) = Ok (Net (nodes_to ls (List.length ls)) (conns_to ls (List.length ls)) (scan_at ls (List.length ls) (List.length (gcod d))))) by exact R1.
  rewrite R1'. cbn [bind n_nodes n_conn n_scan]. eexists _, _, _. split; [reflexivity|]. split; [reflexivity|]. split; [reflexivity|]. split; [reflexivity|].
  assert (P : Permutation (ends (conns_to ls (List.length ls)) ++ map (fun i => LIn i 0) (seq 0 n) ++ scan_at ls (List.length ls) (List.length (gcod d))) (all_legs n ls)).
  { assert (Q : all_legs n ls = flat_map (fun i => [LIn i 0; LIn i 1]) (seq 0 n) ++ flat_map (legs_of ls) (seq 0 (List.length ls))) by reflexivity. rewrite Q.
    assert (PI : forall s, Permutation (flat_map (fun i => [LIn i 0; LIn i 1]) (seq s n)) (map (fun i => LIn i 0) (seq s n) ++ map (fun i => LIn i 1) (seq s n))).
    { clear. induction n as [|n IH]; intro s; cbn; [constructor|]. constructor. rewrite IH. apply Permutation_middle. }
    rewrite PI. unfold legs_to in R2. rewrite <- app_assoc, <- R2. perm. }
  split; [|exact P]. apply (@Permutation_NoDup _ (all_legs n ls)); [now symmetry|].
  assert (Q : Permutation (all_legs n ls) (map (fun i => LIn i 0) (seq 0 n) ++ legs_to ls n (List.length ls))).
  { unfold legs_to. assert (PI : forall s, Permutation (flat_map (fun i => [LIn i 0; LIn i 1]) (seq s n)) (map (fun i => LIn i 0) (seq s n) ++ map (fun i => LIn i 1) (seq s n))).
    { clear. induction n as [|n IH]; intro s; cbn; [constructor|]. constructor. rewrite IH. apply Permutation_middle. }
    unfold all_legs. rewrite PI. rewrite <- app_assoc. reflexivity. }
  rewrite Q. apply NoDup_app.
  - apply FinFun.Injective_map_NoDup; [intros ? ? [= ->]; auto|apply seq_NoDup].
  - apply legs_nodup.
  - intros e He1 He2. apply in_map_iff in He1. destruct He1 as (i & <- & _). unfold legs_to in He2. apply in_app_or in He2. destruct He2 as [He2|He2].
    + apply in_map_iff in He2. destruct He2 as (j & He & _). discriminate.
    + apply in_flat_map in He2. destruct He2 as (u & _ & He2). apply legs_of_box in He2. destruct He2 as [j He]. discriminate.
Qed.
(** ** caps *)
Lemma cap_two i j : i < 2 -> j < 2 -> cap_array 2 i j = if i =? j then 1 else 0.
Proof. intros. destruct i as [|[|]], j as [|[|]]; try lia; reflexivity. Qed.
Lemma cap_more d : 3 <= d -> cap_array d 1 1 = 0.
Proof. intro H. unfold cap_array. destruct (Nat.eqb_spec (1 * d + 1) 0); [lia|]. destruct (Nat.eqb_spec (1 * d + 1) (d * d - 1)); [nia|reflexivity]. Qed.
Lemma snake_zero d : 3 <= d -> fold_right Nat.add 0 (map (fun k => (if 1 =? k then 1 else 0) * cap_array d k 1) (seq 0 d)) = 0.
Proof.
  intro H. assert (G : forall l, fold_right Nat.add 0 (map (fun k => (if 1 =? k then 1 else 0) * cap_array d k 1) l) = 0).
  { induction l as [|k l IH]; [reflexivity|]. cbn [map fold_right]. rewrite IH. destruct (Nat.eqb_spec 1 k) as [<-|]; [rewrite (cap_more H)|]; reflexivity. }
  apply G.
Qed.
