(** Facts about the Python list primitives of [PyBase]. *)
From Verif Require Import PyBase.
Set Implicit Arguments.

Lemma adj_nonneg n i : (0 <= i)%Z -> adj n i = Nat.min (Z.to_nat i) n.
Proof. intros H. unfold adj. destruct (Z.ltb_spec i 0); [lia|reflexivity]. Qed.

Lemma adj_neg n i : (i < 0)%Z -> adj n i = n - Z.to_nat (- i).
Proof. intros H. unfold adj. destruct (Z.ltb_spec i 0); lia. Qed.

Lemma adj_le n i : adj n i <= n.
Proof. unfold adj. destruct (Z.ltb_spec i 0); lia. Qed.

Lemma py_slice_stop A (l : list A) i : py_slice l None (Some i) = firstn (adj (List.length l) i) l.
Proof. unfold py_slice. cbn. now rewrite Nat.sub_0_r. Qed.

Lemma py_slice_start A (l : list A) i : py_slice l (Some i) None = skipn (adj (List.length l) i) l.
Proof.
  unfold py_slice. pose proof (adj_le (List.length l) i).
  apply firstn_all2. rewrite skipn_length. lia.
Qed.

Lemma py_slice_stop_pos A (l : list A) i : (0 <= i)%Z -> py_slice l None (Some i) = firstn (Z.to_nat i) l.
Proof.
  intros H. rewrite py_slice_stop, adj_nonneg by assumption.
  destruct (Nat.le_ge_cases (Z.to_nat i) (List.length l)).
  - now rewrite Nat.min_l.
  - rewrite Nat.min_r by lia. rewrite firstn_all, firstn_all2; auto.
Qed.

Lemma py_slice_start_pos A (l : list A) i : (0 <= i)%Z -> py_slice l (Some i) None = skipn (Z.to_nat i) l.
Proof.
  intros H. rewrite py_slice_start, adj_nonneg by assumption.
  destruct (Nat.le_ge_cases (Z.to_nat i) (List.length l)).
  - now rewrite Nat.min_l.
  - rewrite Nat.min_r by lia. rewrite !skipn_all2; auto.
Qed.

Lemma py_slice_split A (l : list A) i : py_slice l None (Some i) ++ py_slice l (Some i) None = l.
Proof. rewrite py_slice_stop, py_slice_start. apply firstn_skipn. Qed.

Lemma py_slice_map A B (f : A -> B) l a b : py_slice (map f l) a b = map f (py_slice l a b).
Proof. unfold py_slice. rewrite map_length, skipn_map, firstn_map. reflexivity. Qed.

Lemma mapM_ok_length A B (f : A -> res B) l l' : mapM f l = Ok l' -> List.length l' = List.length l.
Proof.
  revert l'; induction l as [|x l IH]; cbn; intros l' H; [injection H as <-; auto|].
  destruct (f x); cbn in H; [|discriminate]. destruct (mapM f l); cbn in H; [|discriminate].
  injection H as <-. cbn. now rewrite (IH _ eq_refl).
Qed.

Lemma mapM_ok_map A B (f : A -> res B) (g : A -> B) l :
  (forall x, In x l -> f x = Ok (g x)) -> mapM f l = Ok (map g l).
Proof.
  induction l as [|x l IH]; cbn; intros H; [reflexivity|].
  rewrite H by auto. cbn. rewrite IH by auto. reflexivity.
Qed.
