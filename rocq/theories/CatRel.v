(** A concrete, non-degenerate model of [Cat.smc]: relations between lists of wire values.
    It shows that the hypotheses of the semantic theorems are satisfiable, including both
    snake equations for both orientations.  No repository code is modelled here. *)
From Verif Require Import PyBase TyModel DiagModel DiagSpec Cat.
Set Implicit Arguments. Unset Strict Implicit.

Section Rel.
Variable V : Type.
Record rel := Rel { rs : nat; rt : nat; rr : list V -> list V -> Prop }.
Definition req (f g : rel) : Prop := rs f = rs g /\ rt f = rt g /\
  forall x y, List.length x = rs f -> List.length y = rt f -> (rr f x y <-> rr g x y).
Definition rid (n : nat) : rel := Rel n n (fun x y => x = y).
Definition rcmp (f g : rel) : rel := Rel (rs f) (rt g)
  (fun x y => exists z, List.length z = rt f /\ List.length z = rs g /\ rr f x z /\ rr g z y).
Definition rtns (f g : rel) : rel := Rel (rs f + rs g) (rt f + rt g)
  (fun x y => rr f (firstn (rs f) x) (firstn (rt f) y) /\ rr g (skipn (rs f) x) (skipn (rt f) y)).

Lemma req_equiv : Equivalence req.
Proof.
  split.
  - intro f. split; [|split]; tauto.
  - intros f g (A & B & H). repeat split; auto; apply H; congruence.
  - intros f g h (A & B & H) (A' & B' & H'). repeat split; try congruence; intro K.
    + apply H', H; auto; congruence.
    + apply H, H'; auto; congruence.
Qed.

Lemma firstn_len (x : list V) a b : List.length x = a + b -> List.length (firstn a x) = a.
Proof. rewrite firstn_length. lia. Qed.
Lemma skipn_len (x : list V) a b : List.length x = a + b -> List.length (skipn a x) = b.
Proof. rewrite skipn_length. lia. Qed.
Lemma skipn_add (x : list V) a b : skipn (a + b) x = skipn b (skipn a x).
Proof.
  revert x; induction a as [|a IH]; intro x; cbn; auto.
  destruct x; [now rewrite skipn_nil|]. apply IH.
Qed.

Definition rel_smc : smc.
Proof.
  refine (@SMC nat rel rs rt 0 Nat.add rid rcmp rtns req req_equiv _ _ _ _ _ _ _ _ _ _ _ _ _ _ _ _ _ _ _ _ _).
  - intros f g H; apply H.
  - intros f g H; apply H.
  - intros f f' g g' (A & B & H) (A' & B' & H'). split; [|split]; cbn; auto.
    intros x y Lx Ly. split; intros (z & L1 & L2 & F & G); exists z; repeat split; try congruence.
    + apply H; auto.
    + apply H'; auto.
    + apply H; auto; congruence.
    + apply H'; auto; congruence.
  - intros f f' g g' (A & B & H) (A' & B' & H'). split; [|split]; cbn; try congruence.
    intros x y Lx Ly. rewrite <- A, <- B.
    rewrite H by eauto using firstn_len. rewrite H' by eauto using skipn_len. reflexivity.
  - intros; lia.
  - auto.
  - intros; lia.
  - reflexivity.
  - reflexivity.
  - reflexivity.
  - reflexivity.
  - reflexivity.
  - reflexivity.
  - intros f g h E E'. split; [|split]; cbn; auto. intros x y Lx Ly. split.
    + intros (z & L1 & L2 & (w & L3 & L4 & F & G) & K). exists w; repeat split; auto. exists z; auto.
    + intros (w & L3 & L4 & F & (z & L1 & L2 & G & K)). exists z; repeat split; auto. exists w; auto.
  - intros f a ->. split; [|split]; cbn; auto. intros x y Lx Ly. split.
    + intros (z & _ & _ & -> & H); auto.
    + intro H. exists x; auto.
  - intros f a ->. split; [|split]; cbn; auto. intros x y Lx Ly. split.
    + intros (z & _ & _ & H & <-); auto.
    + intro H. exists y; auto.
  - intros f g h. split; [|split]; cbn; try lia. intros x y Lx Ly.
    rewrite !firstn_firstn, !skipn_firstn_comm, !skipn_add.
    rewrite !Nat.min_l by lia. replace (rs f + rs g - rs f) with (rs g) by lia.
    replace (rt f + rt g - rt f) with (rt g) by lia. tauto.
  - intros f. split; [|split]; cbn; auto. intros x y Lx Ly. tauto.
  - intros f. split; [|split]; cbn; try lia. intros x y Lx Ly.
    rewrite !firstn_all2, !skipn_all2 by lia. tauto.
  - intros a b. split; [|split]; cbn; auto. intros x y Lx Ly. split.
    + intros [H K]. rewrite <- (firstn_skipn a x), <- (firstn_skipn a y). congruence.
    + intros ->; auto.
  - intros f g h k E E'. split; [|split]; cbn; auto. intros x y Lx Ly. split.
    + intros (z & L1 & L2 & (F & G) & (H & K)). split.
      * exists (firstn (rt f) z). rewrite E in *. repeat split; eauto using firstn_len.
      * exists (skipn (rt f) z). rewrite E in *. repeat split; auto; rewrite skipn_length; lia.
    + intros ((z1 & L1 & L2 & F & H) & (z2 & L3 & L4 & G & K)). exists (z1 ++ z2).
      rewrite !app_length. repeat split; try lia.
      * rewrite firstn_app, <- L1, Nat.sub_diag, firstn_all. cbn. now rewrite app_nil_r.
      * rewrite skipn_app, <- L1, Nat.sub_diag, skipn_all. exact G.
      * rewrite firstn_app, <- L2, Nat.sub_diag, firstn_all. cbn. now rewrite app_nil_r.
      * rewrite skipn_app, <- L2, Nat.sub_diag, skipn_all. exact K.
Defined.

(** every wire carries one value; boxes are arbitrary relations *)
Variable R : box -> list V -> list V -> Prop.
Definition rel_box (b : box) : rel :=
  Rel (List.length (b_dom b)) (List.length (b_cod b))
    (match b with
     | Cap _ _ _ => fun x y => exists a, y = [a; a]
     | Cup _ _ _ => fun x y => exists a, x = [a; a]
     | Swap _ _ => fun x y => exists a b, x = [a; b] /\ y = [b; a]
     | Spider _ n m => fun x y => exists a, x = repeat a n /\ y = repeat a m
     | b => R b
     end).
Lemma obt_rel t : obt rel_smc (fun _ => 1) t = List.length t.
Proof. induction t as [|a t IH]; cbn in *; auto. Qed.
Definition rel_interp : interp rel_smc.
Proof.
  refine (@Interp rel_smc (fun _ => 1) rel_box _ _); intros b _; now rewrite obt_rel.
Defined.

Lemma rel_rigid : rigid rel_interp.
Proof.
  intros rv r. split; (split; [reflexivity|split; [reflexivity|]]);
    intros x y Lx Ly; cbn in *.
  - destruct x as [|a [|? ?]]; try discriminate. destruct y as [|b [|? ?]]; try discriminate. split.
    + intros (z & L1 & L2 & (H1 & c & H2) & ((e & H3) & H4)). cbn in *.
      destruct z as [|u [|v [|w [|? ?]]]]; try discriminate. cbn in *. congruence.
    + intro E. inversion E; subst. exists [b; b; b]. cbn. eauto 10.
  - destruct x as [|a [|? ?]]; try discriminate. destruct y as [|b [|? ?]]; try discriminate. split.
    + intros (z & L1 & L2 & ((c & H1) & H2) & (H3 & (e & H4))). cbn in *.
      destruct z as [|u [|v [|w [|? ?]]]]; try discriminate. cbn in *. congruence.
    + intro E. inversion E; subst. exists [b; b; b]. cbn. eauto 10.
Qed.
End Rel.
