From Coq Require Import QArith Ascii DecimalString DecimalNat.
From Verif Require Import PyBase PyFacts TyModel TyFacts DiagModel DiagSpec DiagFacts GDiag GDiagSpec GDiagFacts QModel QSpec QFacts QGenSpec QGen QSpider AnsatzModel AnsatzSpec AnsatzAr AnsatzNameModel.
Close Scope Q_scope. Open Scope string_scope. Set Implicit Arguments. Unset Strict Implicit.

(** ** Names *)
Fixpoint has (a : ascii) (s : string) : bool := match s with EmptyString => false | String b r => Ascii.eqb a b || has a r end.
Lemma has_app a s t : has a (s ++ t) = has a s || has a t.
Proof. induction s; cbn; auto. now rewrite IHs, orb_assoc. Qed.
Lemma str_assoc s t u : (s ++ t) ++ u = s ++ (t ++ u). Proof. induction s; cbn; congruence. Qed.
Lemma str_nil_r s : s ++ "" = s. Proof. induction s; cbn; congruence. Qed.
(** splitting at the last, respectively first, occurrence of a character *)
Lemma split_last a : forall s1 t1 s2 t2, has a t1 = false -> has a t2 = false -> s1 ++ String a t1 = s2 ++ String a t2 -> s1 = s2 /\ t1 = t2.
Proof.
  induction s1 as [|b s1 IH]; intros t1 [|b' s2] t2 H1 H2 E; cbn in E; inversion E; subst; auto.
  - exfalso. rewrite has_app in H1. cbn in H1. rewrite Ascii.eqb_refl in H1. rewrite orb_true_r in H1. discriminate.
  - exfalso. rewrite has_app in H2. cbn in H2. rewrite Ascii.eqb_refl in H2. rewrite orb_true_r in H2. discriminate.
  - destruct (IH _ _ _ H1 H2 H3) as [-> ->]. auto.
Qed.
Lemma split_first a : forall s1 t1 s2 t2, has a s1 = false -> has a s2 = false -> s1 ++ String a t1 = s2 ++ String a t2 -> s1 = s2 /\ t1 = t2.
Proof.
  induction s1 as [|b s1 IH]; intros t1 [|b' s2] t2 H1 H2 E; cbn in E; inversion E; subst; auto.
  - cbn in H2. rewrite Ascii.eqb_refl in H2. discriminate.
  - cbn in H1. rewrite Ascii.eqb_refl in H1. discriminate.
  - cbn in H1, H2. apply orb_false_iff in H1 as [_ H1]. apply orb_false_iff in H2 as [_ H2]. destruct (IH _ _ _ H1 H2 H3) as [-> ->]. auto.
Qed.
Lemma not_has a : forall s1 t1 s2, has a s2 = false -> s1 ++ String a t1 = s2 -> False.
Proof. intros s1 t1 s2 H <-. rewrite has_app in H. cbn in H. rewrite Ascii.eqb_refl, orb_true_r in H. discriminate. Qed.
Lemma escape_inj : forall s t, escape s = escape t -> s = t.
Proof.
  assert (B : special "\" = false) by reflexivity.
  induction s as [|a s IH]; intros [|b t]; cbn; auto.
  - destruct (special b); discriminate.
  - destruct (special a); discriminate.
  - destruct (special a) eqn:Ea, (special b) eqn:Eb; intros E; inversion E; subst.
    + f_equal. auto.
    + destruct t as [|c t]; cbn in H1; [discriminate|]. destruct (special c) eqn:Ec; inversion H1; subst; congruence.
    + destruct s as [|c s]; cbn in H1; [discriminate|]. destruct (special c) eqn:Ec; inversion H1; subst; congruence.
    + f_equal. auto.
Qed.
Lemma squeeze_cons a r : (forall r', r <> String "@" r') -> squeeze (String a r) = String a (squeeze r).
Proof.
  intros N. cbn [squeeze]. destruct r as [|c r]; [destruct a as [[] [] [] [] [] [] [] []]; reflexivity|].
  destruct c as [[] [] [] [] [] [] [] []]; try (destruct a as [[] [] [] [] [] [] [] []]; reflexivity). now contradiction (N r).
Qed.
Lemma squeeze_app s t : has "@" s = false -> squeeze (s ++ " @ " ++ t) = s ++ "@" ++ squeeze t.
Proof.
  induction s as [|a s IH]; intros H; [reflexivity|]. cbn in H. apply orb_false_iff in H as [H1 H2]. specialize (IH H2).
  change ((String a s) ++ " @ " ++ t) with (String a (s ++ " @ " ++ t)). rewrite squeeze_cons; [rewrite IH; reflexivity|].
  intros r E. destruct s as [|c s]; cbn in E; [discriminate|]. inversion E; subst. cbn in H2. discriminate.
Qed.
Lemma squeeze_none s : has "@" s = false -> squeeze s = s.
Proof.
  induction s as [|a s IH]; intros H; [reflexivity|]. cbn in H. apply orb_false_iff in H as [H1 H2]. specialize (IH H2).
  rewrite squeeze_cons; [now rewrite IH|]. intros r ->. cbn in H2. discriminate.
Qed.
Lemma squeeze_join l : Forall (fun s => has "@" s = false) l -> squeeze (join " @ " l) = join "@" l.
Proof.
  induction 1 as [|x l H Hl IH]; [reflexivity|]. destruct l as [|y l]; [cbn; now apply squeeze_none|].
  change (join " @ " (x :: y :: l)) with (x ++ " @ " ++ join " @ " (y :: l)). rewrite squeeze_app by auto. now rewrite IH.
Qed.
Lemma join_inj a : forall l k, Forall (fun s => s <> "" /\ has a s = false) l -> Forall (fun s => s <> "" /\ has a s = false) k -> join (String a "") l = join (String a "") k -> l = k.
Proof.
  assert (NE : forall x l, x <> "" -> join (String a "") (x :: l) <> ""). { intros x [|y l] H; cbn; auto. destruct x; [contradiction|discriminate]. }
  induction l as [|x l IH]; intros [|y k] Hl Hk E; auto.
  - inversion Hk as [|? ? [N _] _]; subst. symmetry in E. now apply NE in E.
  - inversion Hl as [|? ? [N _] _]; subst. now apply NE in E.
  - inversion Hl as [|? ? [N Hx] Hl']; subst. inversion Hk as [|? ? [N' Hy] Hk']; subst.
    destruct l as [|x' l], k as [|y' k].
    + cbn in E. congruence.
    + exfalso. change (x = y ++ String a (join (String a "") (y' :: k))) in E. symmetry in E. exact (not_has Hx E).
    + exfalso. change (x ++ String a (join (String a "") (x' :: l)) = y) in E. exact (not_has Hy E).
    + change (x ++ String a (join (String a "") (x' :: l)) = y ++ String a (join (String a "") (y' :: k))) in E. destruct (split_first Hx Hy E) as [-> E']. f_equal. now apply IH.
Qed.
Definition suffix (z : Z) : string := str_rep ".l" (Z.to_nat (- z)) ++ str_rep ".r" (Z.to_nat z).
Lemma suffix_head z : suffix z = "" \/ exists r, suffix z = String "." r.
Proof. unfold suffix. destruct (Z.to_nat (- z)); cbn; [destruct (Z.to_nat z); cbn; eauto|eauto]. Qed.
Lemma rep_inj s n m : s <> "" -> str_rep s n = str_rep s m -> n = m.
Proof.
  intros H. revert m. assert (I : forall x y : string, s ++ x = s ++ y -> x = y). { clear. induction s; cbn; intros; auto. inversion H. auto. }
  assert (NE : forall x, s ++ x <> ""). { intros x E. destruct s; [contradiction|discriminate]. }
  induction n; intros [|m] E; cbn in E; auto. - symmetry in E. now apply NE in E. - now apply NE in E.
Qed.
Lemma suffix_inj z w : suffix z = suffix w -> z = w.
Proof.
  unfold suffix. intros E. destruct (Z.to_nat (- z)) as [|n] eqn:En, (Z.to_nat (- w)) as [|m] eqn:Em; cbn [str_rep String.append] in E.
  - apply rep_inj in E; [lia|discriminate].
  - exfalso. destruct (Z.to_nat z); cbn in E; discriminate.
  - exfalso. destruct (Z.to_nat w); cbn in E; discriminate.
  - replace (Z.to_nat z) with 0 in E by lia. replace (Z.to_nat w) with 0 in E by lia. cbn [str_rep] in E. rewrite !str_nil_r in E.
    assert (str_rep ".l" (S n) = str_rep ".l" (S m)) as E' by exact E. apply rep_inj in E'; [lia|discriminate].
Qed.
(** an atomic type name without separators *)
Definition clean (n : string) : Prop := n <> "" /\ has "_" n = false /\ has "@" n = false /\ has "." n = false.
Lemma atom_inj a b : clean (fst a) -> clean (fst b) -> str_atom a = str_atom b -> a = b.
Proof.
  destruct a as [n z], b as [m w]. unfold str_atom. cbn [fst snd]. fold (suffix z). fold (suffix w). intros (_ & _ & _ & Hn) (_ & _ & _ & Hm) E.
  destruct (suffix_head z) as [Ez|(r & Ez)], (suffix_head w) as [Ew|(r' & Ew)]; rewrite Ez, Ew in E.
  - rewrite !str_nil_r in E. subst. f_equal. apply suffix_inj. congruence.
  - exfalso. rewrite str_nil_r in E. symmetry in E. exact (not_has Hn E).
  - exfalso. rewrite str_nil_r in E. exact (not_has Hm E).
  - destruct (split_first Hn Hm E) as [-> ->]. f_equal. apply suffix_inj. congruence.
Qed.
Lemma rep_has a s n : has a s = false -> has a (str_rep s n) = false.
Proof. intros H. induction n; cbn; auto. now rewrite has_app, H. Qed.
Lemma atom_has a x : has a (fst x) = false -> has a ".l" = false -> has a ".r" = false -> has a (str_atom x) = false.
Proof. intros. unfold str_atom. rewrite !has_app, !rep_has by auto. now rewrite H. Qed.
Lemma atom_ne x : fst x <> "" -> str_atom x <> "". Proof. unfold str_atom. destruct (fst x); [contradiction|discriminate]. Qed.
Definition ty_name (t : ty) : string := match t with [] => "" | _ => squeeze (str_ty t) end.
Lemma ty_name_eq t : Forall (fun a => clean (fst a)) t -> ty_name t = join "@" (map str_atom t).
Proof.
  intros F. destruct t as [|a t]; [reflexivity|]. unfold ty_name, str_ty. apply squeeze_join. apply Forall_map. eapply Forall_impl; [|exact F]. intros x (_ & _ & H & _). now apply atom_has.
Qed.
Lemma join_has c sep l : has c sep = false -> Forall (fun s => has c s = false) l -> has c (join sep l) = false.
Proof.
  intros Hs. induction 1 as [|x l H Hl IH]; [reflexivity|]. destruct l; [cbn; auto|]. change (join sep (x :: s :: l)) with (x ++ sep ++ join sep (s :: l)). rewrite !has_app, H, Hs. auto.
Qed.
Lemma ty_name_has t : Forall (fun a => clean (fst a)) t -> has "_" (ty_name t) = false.
Proof. intros F. rewrite ty_name_eq by auto. apply join_has; [reflexivity|]. apply Forall_map. eapply Forall_impl; [|exact F]. intros x (_ & H & _). now apply atom_has. Qed.
Lemma ty_name_inj s t : Forall (fun a => clean (fst a)) s -> Forall (fun a => clean (fst a)) t -> ty_name s = ty_name t -> s = t.
Proof.
  intros Fs Ft E. rewrite !ty_name_eq in E by auto. apply join_inj in E.
  - clear -Fs Ft E. revert t Ft E. induction Fs as [|a s Ha _ IH]; intros [|b t] Ft E; try discriminate; auto. cbn in E. inversion E. inversion Ft; subst. f_equal; auto. now apply atom_inj.
  - apply Forall_map. eapply Forall_impl; [|exact Fs]. intros x (H1 & _ & H & _). split; [now apply atom_ne|now apply atom_has].
  - apply Forall_map. eapply Forall_impl; [|exact Ft]. intros x (H1 & _ & H & _). split; [now apply atom_ne|now apply atom_has].
Qed.
Definition clean_box (b : box) : Prop := Forall (fun a => clean (fst a)) (b_dom b) /\ Forall (fun a => clean (fst a)) (b_cod b).
Lemma summarise_eq b : summarise b = escape (b_name b ++ "_" ++ ty_name (b_dom b) ++ "_" ++ ty_name (b_cod b)).
Proof. unfold summarise, ty_name. destruct (b_dom b), (b_cod b); reflexivity. Qed.
Lemma summarise_inj b1 b2 : clean_box b1 -> clean_box b2 -> summarise b1 = summarise b2 <-> b_name b1 = b_name b2 /\ b_dom b1 = b_dom b2 /\ b_cod b1 = b_cod b2.
Proof.
  intros [D1 C1] [D2 C2]. rewrite !summarise_eq. split.
  - intros E. apply escape_inj in E.
    assert (E1 : (b_name b1 ++ "_" ++ ty_name (b_dom b1)) ++ String "_" (ty_name (b_cod b1)) = (b_name b2 ++ "_" ++ ty_name (b_dom b2)) ++ String "_" (ty_name (b_cod b2))) by (rewrite !str_assoc; exact E).
    apply split_last in E1 as [E1 E2]; try now apply ty_name_has. change ("_" ++ ty_name (b_dom b1)) with (String "_" (ty_name (b_dom b1))) in E1. change ("_" ++ ty_name (b_dom b2)) with (String "_" (ty_name (b_dom b2))) in E1.
    apply split_last in E1 as [E1 E3]; try now apply ty_name_has. apply ty_name_inj in E2, E3; auto.
  - intros (-> & -> & ->). reflexivity.
Qed.
Lemma str_nat_inj i j : str_nat i = str_nat j -> i = j.
Proof.
  unfold str_nat. intros E. apply (f_equal NilEmpty.uint_of_string) in E. rewrite !NilEmpty.usu in E. inversion E. now apply Unsigned.to_uint_inj.
Qed.
Lemma str_nat_has i : has "_" (str_nat i) = false.
Proof. unfold str_nat. generalize (Nat.to_uint i). intros u. induction u; cbn; auto. Qed.
Lemma sym_inj l1 i1 l2 i2 : sym l1 i1 = sym l2 i2 <-> l1 = l2 /\ i1 = i2.
Proof.
  split; [|now intros [-> ->]]. unfold sym. intros E. inversion E as [E1]. change (l1 ++ String "_" (str_nat i1) = l2 ++ String "_" (str_nat i2)) in E1.
  apply split_last in E1 as [-> E1]; try apply str_nat_has. split; auto. now apply str_nat_inj.
Qed.
