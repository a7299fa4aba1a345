(** Proofs: inserting, deleting and swapping positions of lists. *)
From Coq Require Import QArith.
From Verif Require Import PyBase GDiag QModel QSpec QFacts CirModel CirSpec.
Close Scope Q_scope. Set Implicit Arguments. Unset Strict Implicit.

Section L.
  Variable A : Type. Implicit Types (l : list A) (x y : A).
  Lemma ins_len l : forall i x, List.length (ins i x l) = S (List.length l).
  Proof. induction l as [|a l IH]; intros [|i] x; cbn; auto. Qed.
  Lemma ins_eq l : forall i x, i <= List.length l -> ins i x l = firstn i l ++ x :: skipn i l.
  Proof. induction l as [|a l IH]; intros [|i] x H; cbn in *; auto; try lia. f_equal. apply IH. lia. Qed.
  Lemma ins_app_l l m : forall i x, i <= List.length l -> ins i x (l ++ m) = ins i x l ++ m.
  Proof. induction l as [|a l IH]; intros [|i] x H; cbn in *; auto; try lia. f_equal. apply IH. lia. Qed.
  Lemma ins_app_r l m : forall i x, List.length l <= i -> ins i x (l ++ m) = l ++ ins (i - List.length l) x m.
  Proof. induction l as [|a l IH]; intros i x H; cbn in *; [now rewrite Nat.sub_0_r|]. destruct i; [lia|]. cbn. f_equal. apply IH. lia. Qed.
  Lemma del_len l : forall i, i < List.length l -> List.length (del i l) = List.length l - 1.
  Proof. induction l as [|a l IH]; intros [|i] H; cbn in *; try lia. rewrite IH by lia. lia. Qed.
  Lemma del_app l x m : del (List.length l) (l ++ x :: m) = l ++ m.
  Proof. induction l; cbn; auto. now f_equal. Qed.
  Lemma swp_len l : forall i, List.length (swp i l) = List.length l.
  Proof. induction l as [|a l IH]; intros [|i]; cbn; auto. destruct l; auto. Qed.
  Lemma ins_ins l : forall q k x y, q <= k -> k <= List.length l -> ins (S k) y (ins q x l) = ins q x (ins k y l).
  Proof. induction l as [|a l IH]; intros [|q] [|k] x y H1 H2; cbn in *; auto; try lia. f_equal. apply IH; lia. Qed.
  Lemma del_ins_l l : forall q k x, q <= k -> k < List.length l -> del (S k) (ins q x l) = ins q x (del k l).
  Proof. induction l as [|a l IH]; intros [|q] [|k] x H1 H2; cbn in *; auto; try lia. f_equal. apply IH; lia. Qed.
  Lemma del_ins_r l : forall q k x, k < q -> q <= List.length l -> del k (ins q x l) = ins (q - 1) x (del k l).
  Proof.
    induction l as [|a l IH]; intros [|q] [|k] x H1 H2; cbn in *; auto; try lia.
    - now rewrite Nat.sub_0_r.
    - rewrite Nat.sub_0_r. transitivity (a :: ins (q - 1) x (del k l)); [f_equal; apply IH; lia|]. destruct q; [lia|]. cbn. now rewrite Nat.sub_0_r.
  Qed.
  Lemma del_ins l : forall q x, q <= List.length l -> del q (ins q x l) = l.
  Proof. induction l as [|a l IH]; intros [|q] x H; cbn in *; auto; try lia. f_equal. apply IH; lia. Qed.
  Lemma swp_ins_l l : forall q k x, q <= k -> k + 2 <= List.length l -> swp (S k) (ins q x l) = ins q x (swp k l).
  Proof. induction l as [|a l IH]; intros [|q] [|k] x H1 H2; cbn in *; auto; try lia. f_equal. apply IH; lia. Qed.
  Lemma swp_ins_r l : forall q k x, k + 2 <= q -> q <= List.length l -> swp k (ins q x l) = ins q x (swp k l).
  Proof.
    induction l as [|a l IH]; intros [|q] [|k] x H1 H2; cbn in *; auto; try lia.
    - destruct q; [lia|]. destruct l; cbn in *; [lia|]. reflexivity.
    - f_equal. apply IH; lia.
  Qed.
  Lemma swp_mid l : forall k x, k + 2 <= List.length l -> swp k (swp (S k) (swp k (ins (S k) x l))) = ins (S k) x (swp k l).
  Proof.
    induction l as [|a l IH]; intros [|k] x H; cbn in *; try lia.
    - destruct l; cbn in *; [lia|]. reflexivity.
    - f_equal. apply (IH k x). lia.
  Qed.
  Lemma nth_ins l : forall q p x z, q <= List.length l -> nth (shf q p) (ins q x l) z = nth p l z.
  Proof.
    induction l as [|a l IH]; intros [|q] [|p] x z H; cbn in *; auto; try lia.
    unfold shf. change (S p <? S q) with (p <? q). specialize (IH q p x z). unfold shf in IH. destruct (p <? q); cbn; apply IH; lia.
  Qed.
  Lemma nth_ins_eq l : forall q x z, q <= List.length l -> nth q (ins q x l) z = x.
  Proof. induction l as [|a l IH]; intros [|q] x z H; cbn in *; auto; try lia. apply IH. lia. Qed.
  Lemma swp_app l x y m : swp (List.length l) (l ++ x :: y :: m) = l ++ y :: x :: m.
  Proof. induction l; cbn; auto. now f_equal. Qed.
End L.

Lemma w_insert_ok t w i : i <= List.length t -> w_insert t w i = Ok (ins i w t).
Proof. intro H. unfold w_insert. rewrite ins_eq by auto. now apply Nat.leb_le in H as ->. Qed.

(** ** positions of gates *)
Lemma removelast_map A B (f : A -> B) l : removelast (map f l) = map f (removelast l).
Proof. induction l as [|x l IH]; cbn; auto. destruct l; cbn in *; auto. now rewrite IH. Qed.
Lemma last_map A B (f : A -> B) l z : last (map f l) (f z) = f (last l z).
Proof. induction l as [|x l IH]; cbn; auto. destruct l; cbn in *; auto. Qed.
Lemma positions_S b : forall k, positions b (S k) = map S (positions b k).
Proof.
  induction b; intro k; cbn [positions]; try (symmetry; apply seq_shift).
  destruct (0 <? distance)%Z.
  - cbn [map]. f_equal. rewrite <- IHb. reflexivity.
  - rewrite IHb, removelast_map, last_map, map_app. reflexivity.
Qed.
Lemma last_in A (l : list A) z : last l z = z \/ In (last l z) l.
Proof. induction l as [|x l IH]; cbn; auto. destruct l; cbn in *; auto. destruct IH; auto. Qed.
Lemma removelast_in A (x : A) l : In x (removelast l) -> In x l.
Proof. induction l as [|y l IH]; cbn; auto. destruct l; [intros []|]. intros [->|H]; auto. Qed.
Fixpoint nonzero (b : qbox) : Prop := match b with QCtl c d => d <> 0%Z /\ nonzero c | _ => True end.
(** a box under controls has a wire *)
Fixpoint has_wire (b : qbox) : Prop := match b with QCtl c d => has_wire c /\ d <> 0%Z /\ 1 <= List.length (q_dom c) | _ => True end.
Lemma positions_range b : has_wire b -> forall k p, In p (positions b k) -> k <= p < k + List.length (q_dom b).
Proof.
  induction b; intros H k p; cbn [positions]; try (intro I; apply in_seq in I; exact I).
  destruct H as (H & D & W). cbn [q_dom]. rewrite repeat_length. destruct (Z.ltb_spec 0 distance).
  - intros [<-|I]; [lia|]. specialize (IHb H _ _ I). lia.
  - intro I. apply in_app_iff in I. destruct I as [I|[<-|[<-|[]]]].
    + apply removelast_in in I. specialize (IHb H _ _ I). lia.
    + lia.
    + destruct (last_in (positions b k) k) as [-> | I]; [lia|]. specialize (IHb H _ _ I). lia.
Qed.
