(** Relations as an interpretation in which turned boxes are turned relations: the hypothesis of C32 is satisfiable. No repository code is modelled here. *)
From Verif Require Import PyBase PyFacts TyModel TyFacts DiagModel DiagSpec DiagFacts DiagRot Cat CatRel TurnSpec TurnFacts.
Set Implicit Arguments. Unset Strict Implicit.

Section RelTurn.
  Variable V : Type.
  (** an arbitrary relation for every name *)
  Variable B : string -> list V -> list V -> Prop.
  Definition flip_odd (z : Z) (r : list V -> list V -> Prop) (x y : list V) : Prop := if Z.odd z then r (rev x) (rev y) else r x y.
  Fixpoint RR (b : box) : list V -> list V -> Prop :=
    match b with
    | Box n _ _ z | Word n _ z | Frame n _ _ _ z => flip_odd z (B n)
    | DagFrame n _ _ _ z => fun x y => flip_odd z (B n) y x
    | Dagg b' => fun x y => RR b' y x
    | Cap _ _ _ => fun x y => exists a, y = [a; a]
    | Cup _ _ _ => fun x y => exists a, x = [a; a]
    | Swap _ _ => fun x y => exists a b, x = [a; b] /\ y = [b; a]
    | Spider _ n m => fun x y => exists a, x = repeat a n /\ y = repeat a m
    end.
  Definition RI : interp (rel_smc V) := rel_interp RR.
  Lemma rel_box_RR b : rr (ari RI b) = RR b. Proof. destruct b; reflexivity. Qed.
  Lemma flip_more z k r x y : Z.odd z = true -> flip_odd (k + z) r x y <-> flip_odd k r (rev x) (rev y).
  Proof. intro O. unfold flip_odd. rewrite Z.odd_add, O. destruct (Z.odd k); cbn [xorb]; rewrite ?rev_involutive; tauto. Qed.
  Lemma rev_pair (a : V) x : rev x = [a; a] <-> x = [a; a].
  Proof. split; intro H; [rewrite <- (rev_involutive x), H; reflexivity|subst; reflexivity]. Qed.
  Lemma rev_repeat' (a : V) n : rev (repeat a n) = repeat a n.
  Proof. induction n as [|n IH]; [reflexivity|]. cbn [repeat rev]. rewrite IH, <- repeat_cons. reflexivity. Qed.
  Lemma rev_rep (a : V) n x : rev x = repeat a n <-> x = repeat a n.
  Proof. split; intro H; [rewrite <- (rev_involutive x), H; apply rev_repeat'|subst; apply rev_repeat']. Qed.
  Lemma RR_rotate z b x y : Z.odd z = true -> (RR (b_rotate z b) x y <-> RR b (rev x) (rev y)).
  Proof.
    intro O. revert x y. induction b; intros x y; cbn [b_rotate RR]; rewrite ?O; cbn [RR]; try (apply flip_more; exact O).
    - setoid_rewrite rev_pair. reflexivity.
    - setoid_rewrite rev_pair. reflexivity.
    - split; intros (a & c & H1 & H2); exists c, a; [subst; split; reflexivity|]. rewrite <- (rev_involutive x), H1, <- (rev_involutive y), H2. split; reflexivity.
    - setoid_rewrite rev_rep. reflexivity.
    - apply IHb.
  Qed.
  Lemma RR_dagger b x y : RR (b_dagger b) x y <-> RR b y x.
  Proof.
    destruct b; cbn [b_dagger RR]; try tauto; split; intros (a & H); try (exists a; tauto).
    - destruct H as (c & H1 & H2). exists c, a. auto.
    - destruct H as (c & H1 & H2). exists c, a. auto.
  Qed.
  Lemma RR_turn z b x y : Z.odd z = true -> (RR (b_rotate z (b_dagger b)) x y <-> RR b (rev y) (rev x)).
  Proof. intro O. rewrite RR_rotate by exact O. apply RR_dagger. Qed.

  Lemma nc_size rv t : rs (nested_cups RI rv t) = 2 * List.length t /\ rt (nested_cups RI rv t) = 0.
  Proof. destruct (nc_ty RI rv t) as (S0 & T0). cbn [src tgt rel_smc ot unit_ob] in S0, T0. rewrite S0, T0, !(@obt_rel V), rot_length. split; [lia|reflexivity]. Qed.
  Lemma nc_rel rv t : forall x y, List.length x = 2 * List.length t -> y = [] -> (rr (nested_cups RI rv t) x y <-> x = rev (skipn (List.length t) x) ++ skipn (List.length t) x).
  Proof.
    induction t as [|a t IH]; intros x y L ->.
    - cbn in L. destruct x; [|discriminate]. cbn. tauto.
    - cbn [nested_cups]. destruct (nc_size rv t) as (S0 & T0). set (n := List.length t) in *. cbn [List.length] in L. fold n in L.
      assert (X : exists x1 c d x2, x = x1 ++ [c; d] ++ x2 /\ List.length x1 = n /\ List.length x2 = n).
      { exists (firstn n x). destruct (skipn n x) as [|c [|d x2]] eqn:E; try (apply (f_equal (@List.length _)) in E; rewrite skipn_length in E; cbn in E; lia).
        exists c, d, x2. split; [cbn; rewrite <- E; symmetry; apply firstn_skipn|]. split; [rewrite firstn_length; lia|]. apply (f_equal (@List.length _)) in E. rewrite skipn_length in E. cbn in E. lia. }
      destruct X as (x1 & c & d & x2 & -> & L1 & L2).
      assert (SK : skipn (S n) (x1 ++ [c; d] ++ x2) = d :: x2).
      { change ([c; d] ++ x2) with ([c] ++ (d :: x2)). rewrite app_assoc, skipn_app. rewrite skipn_all2 by (rewrite app_length; cbn; lia). rewrite app_length, L1. replace (S n - (n + List.length [c])) with 0 by (cbn [List.length]; lia). reflexivity. }
      cbn [List.length]. fold n. rewrite SK. cbn [cmp tns idm rel_smc rcmp rtns rid rr rs rt]. change (rr (ari RI (Cup (rot_atom (side rv) a) a rv))) with (fun x y : list V => exists a, x = [a; a]). cbn [ari RI rel_interp rel_box rs rt b_dom b_cod b_end List.length].
      rewrite (@obt_rel V), rot_length. fold n. assert (F1 : firstn n (x1 ++ [c; d] ++ x2) = x1) by (rewrite firstn_app, L1, Nat.sub_diag, firstn_all2 by lia; cbn; apply app_nil_r).
      assert (F2 : skipn n (x1 ++ [c; d] ++ x2) = c :: d :: x2) by (rewrite skipn_app, L1, Nat.sub_diag, skipn_all2 by lia; reflexivity). rewrite F1, F2. cbn [firstn skipn]. split.
      + intros (z & Z1 & Z2 & (E1 & (v & E2) & E3) & Hz). injection E2 as -> ->. rewrite S0 in Z2. apply IH in Hz; [|exact Z2|reflexivity].
        assert (E4 : skipn n z = x2). { cbn in E3. auto. }
        rewrite E4 in Hz. assert (E5 : x1 = rev x2). { rewrite E1, Hz. rewrite firstn_app, rev_length, L2, Nat.sub_diag, firstn_all2 by (rewrite rev_length; lia). cbn. apply app_nil_r. }
        rewrite E5. cbn [rev]. rewrite <- app_assoc. reflexivity.
      + intro H. cbn [rev] in H. rewrite <- app_assoc in H. cbn [app] in H. assert (Q : x1 = rev x2 /\ c :: d :: x2 = d :: d :: x2).
        { assert (LL : List.length x1 = List.length (rev x2)) by (rewrite rev_length; lia). revert H LL. clear. generalize (rev x2) as w. induction x1 as [|u x1 IHx]; intros [|v w] H LL; cbn in *; try lia; auto.
          injection H as -> H. destruct (IHx w H) as (-> & K); [lia|]. auto. }
        destruct Q as (E1 & E2). injection E2 as ->. exists (x1 ++ x2). assert (F3 : firstn n (x1 ++ x2) = x1) by (rewrite firstn_app, L1, Nat.sub_diag, firstn_all2 by lia; cbn; apply app_nil_r).
        assert (F4 : skipn n (x1 ++ x2) = x2) by (rewrite skipn_app, L1, Nat.sub_diag, skipn_all2 by lia; reflexivity).
        rewrite F3, F4. rewrite S0, app_length. split; [rewrite (@obt_rel V); fold n; lia|]. split; [lia|]. split; [split; [reflexivity|]; split; [now exists d|reflexivity]|].
        apply IH; [rewrite app_length; lia|reflexivity|]. rewrite F4, E1. reflexivity.
  Qed.
  Lemma rel_slides rv s t (f f' : rel V) : rs f = List.length s -> rt f = List.length t -> rs f' = List.length t -> rt f' = List.length s ->
    (forall x y, rr f' x y <-> rr f (rev y) (rev x)) -> slides RI rv s t f f'.
  Proof.
    intros A1 A2 A3 A4 H. unfold slides. destruct (nc_size rv s) as (S1 & S2). destruct (nc_size rv t) as (S3 & S4).
    cbn [heq rel_smc req cmp tns idm rcmp rtns rid rs rt]. unfold req. cbn [rs rt rcmp rtns rid]. rewrite !(@obt_rel V), rot_length, S2, S4, A1, A3. split; [lia|]. split; [reflexivity|]. intros x y Lx Ly. apply length_zero_iff_nil in Ly. subst y.
    cbn [rr rs rt rcmp rtns rid]. rewrite ?A1, ?A2, ?A3, ?A4, ?S1, ?S3. set (n := List.length s) in *. set (m := List.length t) in *.
    assert (Lf : List.length (firstn m x) = m) by (rewrite firstn_length; lia). assert (Ls : List.length (skipn m x) = n) by (rewrite skipn_length; lia).
    transitivity (rr f (skipn m x) (rev (firstn m x))); [split|split].
    - intros (z & Z1 & Z2 & (E1 & E2) & Hz). apply nc_rel in Hz; [|lia|reflexivity]. fold n in Hz. rewrite <- E2 in Hz. apply H in E1.
      assert (E3 : firstn n z = rev (skipn m x)) by (rewrite Hz, firstn_app, rev_length, Ls, Nat.sub_diag, firstn_all2 by (rewrite rev_length; lia); cbn; apply app_nil_r).
      rewrite E3, rev_involutive in E1. exact E1.
    - intro K. exists (rev (skipn m x) ++ skipn m x). rewrite app_length, rev_length, Ls. assert (F1 : firstn n (rev (skipn m x) ++ skipn m x) = rev (skipn m x)) by (rewrite firstn_app, rev_length, Ls, Nat.sub_diag, firstn_all2 by (rewrite rev_length; lia); cbn; apply app_nil_r).
      assert (F2 : skipn n (rev (skipn m x) ++ skipn m x) = skipn m x) by (rewrite skipn_app, rev_length, Ls, Nat.sub_diag, skipn_all2 by (rewrite rev_length; lia); reflexivity).
      rewrite F1, F2. split; [lia|]. split; [lia|]. split; [split; [|reflexivity]|apply nc_rel; [rewrite app_length, rev_length; lia|reflexivity|]; fold n; rewrite F2; reflexivity]. apply H. rewrite rev_involutive. exact K.
    - intro K. exists (firstn m x ++ rev (firstn m x)). rewrite app_length, rev_length, Lf. assert (F1 : firstn m (firstn m x ++ rev (firstn m x)) = firstn m x) by (rewrite firstn_app, Lf, Nat.sub_diag, firstn_all2 by lia; cbn; apply app_nil_r).
      assert (F2 : skipn m (firstn m x ++ rev (firstn m x)) = rev (firstn m x)) by (rewrite skipn_app, Lf, Nat.sub_diag, skipn_all2 by lia; reflexivity).
      rewrite F1, F2. split; [lia|]. split; [lia|]. split; [split; [reflexivity|exact K]|apply nc_rel; [rewrite app_length, rev_length; lia|reflexivity|]]. fold m. rewrite F2, rev_involutive. reflexivity.
    - intros (z & Z1 & Z2 & (E1 & E2) & Hz). apply nc_rel in Hz; [|lia|reflexivity]. fold m in Hz. set (w := skipn m z) in *.
      assert (Lw : List.length w = m) by (unfold w; rewrite skipn_length; lia). assert (E3 : firstn m z = rev w) by (rewrite Hz, firstn_app, rev_length, Lw, Nat.sub_diag, firstn_all2 by (rewrite rev_length; lia); cbn; apply app_nil_r).
      rewrite E1, E3, rev_involutive. exact E2.
  Qed.
  Lemma RI_turns : turns RI.
  Proof.
    intros rv b O.
    assert (D : forall z, rs (ari RI (b_rotate z (b_dagger b))) = List.length (b_cod b) /\ rt (ari RI (b_rotate z (b_dagger b))) = List.length (b_dom b)).
    { intro z. cbn [ari RI rel_interp rel_box rs rt]. rewrite b_dom_rotate, b_cod_rotate, b_dom_dagger, b_cod_dagger, !rot_length. split; reflexivity. }
    split; apply rel_slides; rewrite ?rot_length; try apply D; try reflexivity; intros x y; rewrite !rel_box_RR.
    - apply RR_turn, odd_side.
    - rewrite RR_turn, !rev_involutive by (rewrite side_neg; apply odd_side). reflexivity.
  Qed.
End RelTurn.
