(** The order in which the converter visits the arcs (C68, lemmas only). *)
From Coq Require Import Sorted.
From Verif Require Import PyBase PyFacts TyModel TyFacts DiagModel DiagSpec DiagMisc MiscModel TreeModel TreeSpec TreeFacts TreeRew TdModel TdSpec TdComps.
Close Scope string_scope. Set Implicit Arguments. Unset Strict Implicit.

Lemma NoDup_app_remove_l A (l m : list A) : NoDup (l ++ m) -> NoDup m.
Proof. induction l; cbn; auto. inversion 1; auto. Qed.
Lemma NoDup_app_remove_r A (l m : list A) : NoDup (l ++ m) -> NoDup l.
Proof. induction l as [|x l IH]; cbn; [constructor|]. inversion 1; subst. constructor; auto. intros J. apply H2. apply in_or_app. now left. Qed.
Definition cind (x : node * node) : Z := n_ind (snd x).
Definition oarcs (n : node) : list (node * node) := map (pair n) (ordered_children n).
Fixpoint pairs (fuel : nat) (curr : list node) : list (node * node) :=
  match fuel, curr with
  | O, _ | _, [] => []
  | S f, _ => List.concat (map oarcs curr) ++ pairs f (List.concat (map ordered_children curr))
  end.
Lemma foldM_flat A B (f : A -> B -> node -> res B) (g : A -> list node) l : forall s, foldM (fun st n => foldM (f n) (g n) st) l s = foldM (fun st '(n, c) => f n st c) (List.concat (map (fun n => map (pair n) (g n)) l)) s.
Proof.
  induction l as [|n l IH]; intros s; [reflexivity|]. cbn [map List.concat foldM]. rewrite foldM_app.
  assert (E : foldM (fun st '(n, c) => f n st c) (map (pair n) (g n)) s = foldM (f n) (g n) s) by (generalize (g n) s; clear; induction l as [|c l IH]; intros s; [reflexivity|]; cbn; destruct (f n s c); cbn; auto).
  rewrite E. destruct (foldM (f n) (g n) s); cbn [bind]; auto.
Qed.
Lemma walk_pairs fuel : forall curr st, walk fuel curr st = foldM (fun st '(n, c) => add_child n st c) (pairs fuel curr) st.
Proof.
  induction fuel as [|f IH]; intros curr st; [reflexivity|]. cbn [walk pairs]. destruct curr as [|n curr]; [reflexivity|]. rewrite foldM_app. rewrite (@foldM_flat _ _ add_child ordered_children). unfold oarcs at 1. destruct (foldM _ _ st); cbn [bind]; auto.
Qed.

Lemma ordered_perm n : (forall c, In c (n_children n) -> n_ind c <> n_ind n) -> Permutation (ordered_children n) (n_children n).
Proof.
  intros H. unfold ordered_children. cbv zeta. destruct (sort_ind_spec (n_children n)) as (Sd & P & _). assert (H' : forall c, In c (sort_ind (n_children n)) -> n_ind c <> n_ind n) by (intros c Hc; apply H; exact (Permutation_in _ P Hc)).
  etransitivity; [|exact P]. clear P H. revert Sd H'. generalize (sort_ind (n_children n)) as l. intros l Sd H.
  assert (G : exists l1 l2, l = l1 ++ l2 /\ Forall (fun c => (n_ind c < n_ind n)%Z) l1 /\ Forall (fun c => (n_ind n < n_ind c)%Z) l2).
  { clear -Sd H. induction Sd as [|c l Sd IH F]; [exists [], []; auto|]. destruct (Z.lt_trichotomy (n_ind c) (n_ind n)) as [L|[E|L]].
    - destruct IH as (l1 & l2 & -> & F1 & F2); [intros; apply H; now right|]. exists (c :: l1), l2. auto.
    - exfalso. apply (H c); [now left | exact E].
    - exists [], (c :: l). split; [reflexivity|]. split; [constructor|]. constructor; [exact L|]. eapply Forall_impl; [|exact F]. unfold ind_le. intros; lia. }
  destruct G as (l1 & l2 & -> & F1 & F2). rewrite rev_app_distr. rewrite !take_while_app.
  - now rewrite <- Permutation_rev.
  - apply Forall_rev. eapply Forall_impl; [|exact F2]. cbn. intros; apply Z.ltb_lt; lia.
  - apply Forall_rev. eapply Forall_impl; [|exact F1]. cbn. intros; apply Z.ltb_ge; lia.
  - eapply Forall_impl; [|exact F1]. cbn. intros; apply Z.ltb_lt; lia.
  - eapply Forall_impl; [|exact F2]. cbn. intros; apply Z.ltb_ge; lia.
Qed.
Lemma arcs_eta n : arcs n = map (pair n) (n_children n) ++ List.concat (map arcs (n_children n)).
Proof. destruct n as [w i t p cs]. unfold arcs at 1. rewrite subtrees_node. cbn [map List.concat n_children]. f_equal. rewrite concat_map, map_map. induction cs as [|c cs IH]; [reflexivity|]. cbn [map List.concat]. rewrite concat_app, IH. reflexivity. Qed.
Lemma concat_perm A B (f g : A -> list B) l : (forall x, In x l -> Permutation (f x) (g x)) -> Permutation (List.concat (map f l)) (List.concat (map g l)).
Proof. induction l as [|x l IH]; intros H; [reflexivity|]. cbn. apply Permutation_app; [apply H; now left | apply IH; intros; apply H; now right]. Qed.
Lemma concat_perm_l A B (f : A -> list B) l l' : Permutation l l' -> Permutation (List.concat (map f l)) (List.concat (map f l')).
Proof. induction 1; cbn; auto; [now apply Permutation_app_head | rewrite !app_assoc; apply Permutation_app_tail, Permutation_app_comm | etransitivity; eauto]. Qed.
Lemma concat_split A B (f g : A -> list B) l : Permutation (List.concat (map (fun x => f x ++ g x) l)) (List.concat (map f l) ++ List.concat (map g l)).
Proof. induction l as [|x l IH]; [reflexivity|]. cbn. rewrite IH, <- !app_assoc. apply Permutation_app_head. rewrite !app_assoc. apply Permutation_app_tail, Permutation_app_comm. Qed.
Lemma concat_map_concat A B C (f : B -> list C) (g : A -> list B) l : List.concat (map f (List.concat (map g l))) = List.concat (map (fun x => List.concat (map f (g x))) l).
Proof. induction l as [|x l IH]; [reflexivity|]. cbn. now rewrite map_app, concat_app, IH. Qed.
Lemma nodup_children n : NoDup (inds n) -> forall c, In c (n_children n) -> n_ind c <> n_ind n /\ NoDup (inds c).
Proof.
  rewrite inds_eta. intros H c Hc. inversion H as [|? ? N D]; subst. split.
  - intros E. apply N. rewrite <- E. apply in_concat. exists (inds c). split; [now apply in_map | rewrite inds_eta; now left].
  - clear -D Hc. induction (n_children n) as [|x l IH]; [destruct Hc|]. cbn in D. destruct Hc as [-> | Hc]; [apply NoDup_app_remove_r in D; exact D | apply IH; [exact Hc|]; apply NoDup_app_remove_l in D; exact D].
Qed.
Lemma pairs_perm fuel : forall curr, list_sum (map size curr) < fuel -> (forall n, In n curr -> NoDup (inds n)) -> Permutation (pairs fuel curr) (List.concat (map arcs curr)).
Proof.
  induction fuel as [|f IH]; intros curr L D; [lia|]. cbn [pairs]. destruct curr as [|n0 cu]; [reflexivity|]. remember (n0 :: cu) as curr eqn:Ec.
  assert (P : forall n, In n curr -> Permutation (ordered_children n) (n_children n)) by (intros n Hn; apply ordered_perm; intros c Hc; now apply (nodup_children (D n Hn))).
  assert (Q : Permutation (List.concat (map ordered_children curr)) (List.concat (map n_children curr))) by now apply concat_perm.
  rewrite IH.
  - rewrite (@concat_perm_l _ _ arcs _ _ Q), concat_map_concat. rewrite (map_ext arcs _ arcs_eta), (concat_split (fun n => map (pair n) (n_children n))). apply Permutation_app_tail. apply concat_perm. intros n Hn. unfold oarcs. now apply Permutation_map, P.
  - assert (E : list_sum (map size (List.concat (map ordered_children curr))) + List.length curr = list_sum (map size curr)).
    { assert (E : list_sum (map size (List.concat (map ordered_children curr))) = list_sum (map size (List.concat (map n_children curr)))) by (clear -Q; induction Q; cbn; unfold list_sum in *; cbn in *; lia). rewrite E. clear. induction curr as [|[w i t p cs] l IH]; [reflexivity|]. cbn [map List.concat n_children]. rewrite map_app, list_sum_app. cbn [size List.length list_sum fold_right] in *. change (fold_right Nat.add 0 (map size cs)) with (list_sum (map size cs)). change (fold_right Nat.add 0 (map size l)) with (list_sum (map size l)). lia. }
    subst curr. cbn [List.length] in E. lia.
  - intros c Hc. apply (Permutation_in _ Q) in Hc. apply in_concat in Hc. destruct Hc as (cs & H1 & H2). apply in_map_iff in H1. destruct H1 as (n & <- & Hn). now apply (nodup_children (D n Hn)).
Qed.
Lemma inds_arcs n : Permutation (inds n) (n_ind n :: map cind (arcs n)).
Proof.
  induction n as [w i t p cs IH] using node_rec. rewrite inds_eta, arcs_eta. cbn [n_ind n_children]. constructor. rewrite map_app, map_map. unfold cind at 1. cbn [snd]. rewrite concat_map, map_map. induction IH as [|c cs Hc F IHF]; [reflexivity|]. cbn [map List.concat]. rewrite Hc, IHF. cbn [app]. constructor. rewrite !app_assoc. apply Permutation_app_tail, Permutation_app_comm.
Qed.
Section Growth.
  Variable ntok : nat.
  Lemma growth_app ps1 : forall k ps2, growth ntok k ps1 -> growth ntok (k ++ map cind ps1) ps2 -> growth ntok k (ps1 ++ ps2).
  Proof. induction ps1 as [|[n c] ps1 IH]; intros k ps2 G1 G2; cbn in *; [now rewrite app_nil_r in G2|]. inversion G1; subst. constructor; auto. apply IH; [assumption|]. now rewrite <- app_assoc. Qed.
  Lemma growth_flat ps : forall k, (forall x, In x ps -> In (n_ind (fst x)) k) -> NoDup (k ++ map cind ps) -> (forall x, In x ps -> (0 <= cind x < Z.of_nat ntok)%Z) -> growth ntok k ps.
  Proof.
    induction ps as [|[n c] ps IH]; intros k H D R; [constructor|]. cbn [map] in D. constructor.
    - exact (H _ (or_introl eq_refl)).
    - intros J. apply NoDup_remove_2 in D. apply D. apply in_or_app. now left.
    - exact (R _ (or_introl eq_refl)).
    - apply IH; [intros x Hx; apply in_or_app; left; apply H; now right | | intros x Hx; apply R; now right]. rewrite <- app_assoc. exact D.
  Qed.
  Lemma growth_pairs fuel : forall curr k, (forall n, In n curr -> In (n_ind n) k) -> NoDup (k ++ map cind (pairs fuel curr)) -> (forall x, In x (pairs fuel curr) -> (0 <= cind x < Z.of_nat ntok)%Z) -> growth ntok k (pairs fuel curr).
  Proof.
    induction fuel as [|f IH]; intros curr k H D R; [constructor|]. cbn [pairs] in *. destruct curr as [|n0 cu]; [constructor|]. remember (n0 :: cu) as curr eqn:Ec. clear Ec. rewrite map_app, app_assoc in D. apply growth_app.
    - apply growth_flat; [| now apply NoDup_app_remove_r in D | intros x Hx; apply R; apply in_or_app; now left]. intros x Hx. apply in_concat in Hx. destruct Hx as (l & Hl & Hx). apply in_map_iff in Hl. destruct Hl as (n & <- & Hn). apply in_map_iff in Hx. destruct Hx as (c & <- & _). now apply H.
    - apply IH; [| exact D | intros x Hx; apply R; apply in_or_app; now right]. intros c Hc. apply in_or_app. right. apply in_concat in Hc. destruct Hc as (l & Hl & Hc). apply in_map_iff in Hl. destruct Hl as (n & <- & Hn). apply in_map_iff. exists (n, c). split; [reflexivity|]. apply in_concat. exists (oarcs n). split; now apply in_map.
  Qed.
End Growth.
Theorem comps_ok root ntok : tidy ntok root -> exists wc A, components root ntok = Ok (wc, map (fun x => (lo x, hi x)) A) /\ Permutation A (arcs root) /\ List.length wc = ntok /\ forall i, i < ntok -> word_links root (Z.of_nat i) (nth i wc []).
Proof.
  intros [D R]. assert (Rr : (0 <= n_ind root < Z.of_nat ntok)%Z) by (apply R; rewrite inds_eta; now left). set (r := Z.to_nat (n_ind root)). assert (Er : n_ind root = Z.of_nat r) by (unfold r; lia).
  assert (P : Permutation (pairs (S (size root)) [root]) (arcs root)) by (rewrite pairs_perm; [cbn [map List.concat]; now rewrite app_nil_r | cbn; lia | intros n [<- | []]; exact D]).
  unfold components. rewrite Er, py_set_nat by (rewrite repeat_length; lia). cbn [bind]. rewrite walk_pairs. set (ps := pairs (S (size root)) [root]) in *.
  destruct (@steps_ok root ntok ps [] (set_nth r [((-1)%Z, n_typ root)] (repeat [] ntok)) []) as (wc & E & Lw & I).
  - split; [now rewrite set_nth_len, repeat_length|]. intros i Li. rewrite set_nth_nth by (rewrite repeat_length; lia). unfold links_of. cbn [map List.concat]. rewrite app_nil_r. destruct (Nat.eqb_spec i r) as [->|N].
    + rewrite <- Er, Z.eqb_refl. split; [reflexivity | repeat constructor].
    + destruct (Z.eqb_spec (n_ind root) (Z.of_nat i)); [lia|]. assert (En : nth i (repeat (@nil (Z * ty)) ntok) [] = []) by (destruct (nth_in_or_default i (repeat (@nil (Z * ty)) ntok) []) as [J | J]; [now apply repeat_spec in J | exact J]). rewrite En. split; [reflexivity | constructor].
  - intros x [].
  - intros i [<- | []]. exact Rr.
  - intros x [].
  - unfold known. cbn [map]. apply growth_pairs.
    + intros n [<- | []]. now left.
    + cbn [app]. apply (Permutation_NoDup (inds_arcs root)) in D. eapply Permutation_NoDup; [|exact D]. constructor. apply Permutation_map. symmetry. exact P.
    + intros x Hx. apply R. apply (Permutation_in _ (Permutation_sym (inds_arcs root))). right. apply in_map. exact (Permutation_in _ P Hx).
  - exists wc, ps. split; [exact E|]. split; [exact P|]. split; [exact Lw|]. intros i Li. destruct (I i Li) as [I1 I2]. split; [|exact I2]. rewrite I1. cbn [app]. unfold links_of, links. apply Permutation_app_head. apply (concat_perm_l (arc_links (Z.of_nat i))). exact P.
Qed.
