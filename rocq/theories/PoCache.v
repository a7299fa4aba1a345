(** Proofs about the cache of PoModel.v. *)
From Verif Require Import PyBase PyFacts PoModel PoSpec.
Set Implicit Arguments. Unset Strict Implicit.

(** ** sorting *)
Lemma insert_perm x l : Permutation (insert_nat x l) (x :: l).
Proof. induction l as [|y l IH]; cbn; auto. destruct (x <=? y); auto. rewrite IH. apply perm_swap. Qed.
Lemma sort_perm l : Permutation (sort_nat l) l.
Proof. induction l as [|x l IH]; cbn; auto. rewrite insert_perm. now apply perm_skip. Qed.
Lemma insert_comm x y l : insert_nat x (insert_nat y l) = insert_nat y (insert_nat x l).
Proof.
  induction l as [|z l IH]; cbn.
  - destruct (Nat.leb_spec x y), (Nat.leb_spec y x); auto; try lia. now replace x with y by lia.
  - destruct (Nat.leb_spec y z), (Nat.leb_spec x z); cbn; repeat (match goal with |- context [?a <=? ?b] => destruct (Nat.leb_spec a b) end; try lia; auto); try (now rewrite IH). now replace x with y by lia.
Qed.
Lemma sort_eq a b : Permutation a b -> sort_nat a = sort_nat b.
Proof. induction 1; cbn; try congruence. apply insert_comm. Qed.
Lemma sort_eq_inv a b : sort_nat a = sort_nat b -> Permutation a b.
Proof. intro H. rewrite <- (sort_perm a), H. apply sort_perm. Qed.

(** ** equality of keys *)
Lemma lists_eqb_ok a b : lists_eqb a b = true <-> a = b.
Proof. revert b. induction a as [|x a IH]; intros [|y b]; cbn; try (split; congruence). rewrite andb_true_iff, Nat.eqb_eq, IH. split; [intros (-> & ->); auto|intros [= -> ->]; auto]. Qed.
Lemma all_eqb_ok A (f : A -> A -> bool) : (forall x y, f x y = true <-> x = y) -> forall a b, all_eqb f a b = true <-> a = b.
Proof. intros H a. induction a as [|x a IH]; intros [|y b]; cbn; try (split; congruence). rewrite andb_true_iff, H, IH. split; [intros (-> & ->); auto|intros [= -> ->]; auto]. Qed.
Lemma key_eqb_ok a b : key_eqb a b = true <-> a = b.
Proof.
  destruct a as [[i o] s], b as [[i' o'] s']. unfold key_eqb. rewrite !andb_true_iff, (all_eqb_ok lists_eqb_ok), lists_eqb_ok, (all_eqb_ok (f := fun p q => (fst p =? fst q) && (snd p =? snd q))).
  - split; [intros ((-> & ->) & ->); auto|intros [= -> -> ->]; auto].
  - intros [x y] [x' y']. cbn. rewrite andb_true_iff, !Nat.eqb_eq. split; [intros (-> & ->); auto|intros [= -> ->]; auto].
Qed.
Lemma key_eqb_refl k : key_eqb k k = true. Proof. now apply key_eqb_ok. Qed.
Lemma get_app k c d : cache_get k (c ++ d) = match cache_get k c with Some p => Some p | None => cache_get k d end.
Proof. induction c as [|[k' p] c IH]; cbn; auto. destruct (key_eqb k k'); auto. Qed.
Lemma get_add_new k q c k' : cache_get k c = None -> cache_get k' (cache_add k q c) = if key_eqb k' k then Some q else cache_get k' c.
Proof.
  intro H. unfold cache_add. rewrite H, get_app. cbn. destruct (key_eqb k' k) eqn:E.
  - apply key_eqb_ok in E. subst. now rewrite H.
  - destruct (cache_get k' c); auto.
Qed.
Lemma get_in k c q : cache_get k c = Some q -> In (k, q) c.
Proof. induction c as [|[k' p] c IH]; cbn; [discriminate|]. destruct (key_eqb k k') eqn:E; [|auto]. apply key_eqb_ok in E. subst. intros [= ->]. auto. Qed.
Lemma add_new_in k q c kq : cache_get k c = None -> In kq (cache_add k q c) -> In kq c \/ kq = (k, q).
Proof. intro H. unfold cache_add. rewrite H. intro I. apply in_app_or in I. destruct I as [|[|[]]]; auto. Qed.

(** ** keys *)
Lemma edge_pos_nodup l : NoDup l -> forall k i e, nth_error l i = Some e -> edge_pos e k l = Some (k + i).
Proof.
  induction 1 as [|x l N ND IH]; intros k i e H; [destruct i; discriminate|]. destruct i as [|i]; cbn in H |- *.
  - injection H as ->. replace (edge_pos e (S k) l) with (@None nat). { rewrite Nat.eqb_refl. f_equal. lia. }
    symmetry. clear - N. revert N. generalize (S k). induction l as [|y l IH]; cbn; intros m N; auto. rewrite IH by tauto. destruct (Nat.eqb_spec y e); auto. subst. tauto.
  - rewrite (IH (S k) i e H). f_equal. lia.
Qed.
Definition index (e : nat) (l : list nat) : nat := match edge_pos e 0 l with Some i => i | None => 0 end.
Lemma index_nth l i e : NoDup l -> nth_error l i = Some e -> edge_pos e 0 l = Some i /\ index e l = i.
Proof. intros ND H. unfold index. rewrite (edge_pos_nodup ND 0 H). auto. Qed.
Lemma in_index l e : NoDup l -> In e l -> edge_pos e 0 l = Some (index e l) /\ nth_error l (index e l) = Some e.
Proof. intros ND H. apply In_nth_error in H. destruct H as (i & H). destruct (index_nth ND H) as (E1 & E2). rewrite E2. auto. Qed.
Lemma map_nth_eq A B (g : nat -> B) (f : A -> B) l : (forall i x, nth_error l i = Some x -> f x = g i) -> map f l = map g (seq 0 (List.length l)).
Proof.
  revert g. induction l as [|x l IH]; intros g H; cbn; auto. f_equal; [apply (H 0 x eq_refl)|]. rewrite <- seq_shift, map_map. apply (IH (fun i => g (S i))). intros i y Hy. apply (H (S i) y Hy).
Qed.
Section Keys.
  Variable sym : nat -> nat.
  Hypothesis sym_inj : forall i j, sym i = sym j -> i = j.
  Definition name (l : list nat) (e : nat) : nat := sym (index e l).
  Definition size_of (p : problem) (e : nat) : nat := match p_size p e with Some n => n | None => 0 end.
  Lemma mapM_name l s : NoDup l -> (forall e, In e s -> In e l) -> mapM (edge_sym sym l) s = Ok (map (name l) s).
  Proof.
    intros ND. induction s as [|e s IH]; cbn; auto. intro H. unfold edge_sym at 1. destruct (@in_index l e ND) as (E & _); auto. rewrite E. cbn. rewrite IH by auto. reflexivity.
  Qed.
  Lemma mapM_map X Y (f : X -> res Y) g l : (forall x, In x l -> f x = Ok (g x)) -> mapM f l = Ok (map g l).
  Proof. induction l as [|x l IH]; cbn; auto. intro H. rewrite H by auto. cbn. rewrite IH by auto. reflexivity. Qed.
  Lemma key_of p l : proper p -> p_edges p = Some l ->
    make_key sym p = Ok (map (fun s => sort_nat (map (name l) s)) (p_inputs p), sort_nat (map (name l) (p_output p)), map (fun e => (name l e, size_of p e)) l).
  Proof.
    intros (l' & E & ND & HS & HI & HO) E'. assert (l' = l) by congruence. subst l'. unfold make_key. rewrite E.
    rewrite (mapM_map (g := fun e => (name l e, size_of p e))).
    2:{ intros e He. unfold edge_sym. destruct (in_index ND He) as (Ee & _). rewrite Ee. cbn. unfold size_of. destruct (HS e He) as (n & ->). reflexivity. }
    cbn [bind]. rewrite (mapM_map (g := fun s => sort_nat (map (name l) s))).
    2:{ intros s Hs. rewrite mapM_name; auto. intros e He. eapply HI; eauto. }
    cbn [bind]. rewrite mapM_name by auto. reflexivity.
  Qed.
  Lemma name_inj l a b : NoDup l -> In a l -> In b l -> name l a = name l b -> a = b.
  Proof. intros ND Ha Hb H. apply sym_inj in H. destruct (in_index ND Ha) as (_ & E1), (in_index ND Hb) as (_ & E2). congruence. Qed.
  Lemma map_inj_on A B (f : A -> B) (P : A -> Prop) : (forall a b, P a -> P b -> f a = f b -> a = b) -> forall s t, Forall P s -> Forall P t -> map f s = map f t -> s = t.
  Proof. intros H s. induction s as [|x s IH]; intros [|y t] F1 F2 E; try discriminate; auto. inversion F1; inversion F2; subst. cbn in E. injection E as E1 E2. f_equal; auto. Qed.
  Lemma key_same p q : proper p -> proper q -> (exists k, make_key sym p = Ok k /\ make_key sym q = Ok k) <-> same_up_to_names p q.
  Proof.
    intros Pp Pq. pose proof Pp as (l & El & NDl & HSl & HIl & HOl). pose proof Pq as (m & Em & NDm & HSm & HIm & HOm). rewrite (key_of Pp El), (key_of Pq Em). split.
    - intros (k & E1 & E2). assert (E : forall A (x y z : A), Ok x = Ok z -> Ok y = Ok z -> x = y) by congruence. specialize (E _ _ _ _ E1 E2). clear E1 E2 k. injection E as Ei Eo Es.
      assert (Ll : List.length l = List.length m) by (apply (f_equal (@List.length _)) in Es; now rewrite !map_length in Es).
      set (f := fun e => nth (index e l) m 0).
      assert (Hf : forall i e, nth_error l i = Some e -> nth_error m i = Some (f e)). { intros i e H. destruct (index_nth NDl H) as (_ & Ee). unfold f. rewrite Ee. apply nth_error_nth'. rewrite <- Ll. apply nth_error_Some. congruence. }
      assert (Fm : forall e, In e l -> In (f e) m). { intros e He. apply In_nth_error in He. destruct He as (i & Hi). apply Hf in Hi. now apply nth_error_In in Hi. }
      assert (Fn : forall e, In e l -> name m (f e) = name l e). { intros e He. apply In_nth_error in He. destruct He as (i & Hi). unfold name. destruct (index_nth NDl Hi) as (_ & ->). destruct (index_nth NDm (Hf i e Hi)) as (_ & ->). reflexivity. }
      assert (PM : forall s t, (forall e, In e s -> In e l) -> (forall e, In e t -> In e m) -> sort_nat (map (name l) s) = sort_nat (map (name m) t) -> Permutation (map f s) t).
      { intros s t Hs Ht E. apply sort_eq_inv in E. destruct (Permutation_map_inv _ _ E) as (u & Eu & Pu). rewrite Pu. assert (Ht' : forall e, In e u -> In e m) by (intros e He; apply Ht; now apply (Permutation_in _ (Permutation_sym Pu))).
        assert (map (name m) (map f s) = map (name m) u). { rewrite <- Eu, map_map. apply map_ext_in. intros e He. apply Fn. auto. }
        replace (map f s) with u; auto. symmetry. apply (@map_inj_on nat nat (name m) (fun e => In e m)); auto; [intros; eapply name_inj; eauto|apply Forall_forall; intros e He; apply in_map_iff in He; destruct He as (a & <- & Ha); auto|now apply Forall_forall]. }
      exists f, l. split; auto. split; [|split; [|split; [|split]]].
      + rewrite Em. f_equal. apply (nth_ext _ _ 0 0); [now rewrite map_length|]. intros i Hi. rewrite <- Ll in Hi. destruct (nth_error l i) as [e|] eqn:Ee; [|apply nth_error_None in Ee; lia].
        rewrite (nth_indep (map f l) 0 (f 0)) by (now rewrite map_length). rewrite map_nth. apply nth_error_nth with (d := 0) in Ee as En. rewrite En. apply Hf in Ee. now apply nth_error_nth with (d := 0) in Ee.
      + intros a b Ha Hb E. apply (name_inj NDl Ha Hb). rewrite <- !Fn by auto. now f_equal.
      + intros e He. apply In_nth_error in He as Hi. destruct Hi as (i & Hi). pose proof (map_nth_error (fun e => (name l e, size_of p e)) i l Hi) as M1. pose proof (map_nth_error (fun e => (name m e, size_of q e)) i m (Hf i e Hi)) as M2.
        rewrite <- Es in M2. assert (size_of p e = size_of q (f e)) by congruence. unfold size_of in H. destruct (HSl e He) as (n & En). destruct (HSm (f e) (Fm e He)) as (n' & En'). rewrite En, En' in *. congruence.
      + clear - Ei PM HIl HIm. revert Ei HIl HIm. generalize (p_inputs q). induction (p_inputs p) as [|s ss IH]; intros [|t ts] E H1 H2; try discriminate; constructor.
        * injection E as E _. apply PM; auto; intros e He; [eapply H1|eapply H2]; eauto; now left.
        * injection E as _ E. apply IH; auto; intros s' e Hs He; [eapply H1|eapply H2]; eauto; now right.
      + apply PM; auto.
    - intros (f & l' & El' & Em' & Inj & Sz & Fi & Po). assert (l' = l) by congruence. subst l'. assert (m = map f l) by congruence. subst m. eexists. split; [reflexivity|].
      assert (Fn : forall e, In e l -> name (map f l) (f e) = name l e). { intros e He. apply In_nth_error in He. destruct He as (i & Hi). unfold name. destruct (index_nth NDl Hi) as (_ & ->). destruct (index_nth NDm (map_nth_error f i l Hi)) as (_ & ->). reflexivity. }
      assert (PM : forall s t, (forall e, In e s -> In e l) -> Permutation (map f s) t -> sort_nat (map (name (map f l)) t) = sort_nat (map (name l) s)).
      { intros s t Hs H. apply sort_eq. rewrite <- (Permutation_map (name (map f l)) H), map_map. apply Permutation_refl'. apply map_ext_in. auto. }
      f_equal. f_equal; [f_equal|].
      + clear - Fi PM HIl. induction Fi as [|s t ss ts H _ IH]; cbn; auto. f_equal; [apply PM; auto; intros; eapply HIl; eauto; now left|apply IH; intros; eapply HIl; eauto; now right].
      + now apply PM.
      + rewrite map_map. apply map_ext_in. intros e He. rewrite Fn by auto. unfold size_of. now rewrite Sz.
  Qed.
End Keys.

(** ** histories *)
Section Hist.
  Variable sym : nat -> nat.
  Hypothesis sym_inj : forall i j, sym i = sym j -> i = j.
  Variable search : problem -> option nat -> res path.
  Definition event_proper (e : event) : Prop := match e with Call p _ => proper p | _ => True end.
  (** the path comes from a search for a problem with this key that was asked for *)
  Definition earned (log : list (problem * res path)) (kq : key * path) : Prop := exists p lim, In p (map fst log) /\ make_key sym p = Ok (fst kq) /\ search p lim = Ok (snd kq).
  Definition file_ok (log : list (problem * res path)) (f : option file) : Prop := match f with Some (Holds c) => Forall (earned log) c | _ => True end.
  Definition ckp_ok (log : list (problem * res path)) (c : option cache) : Prop := match c with Some c => Forall (earned log) c | _ => True end.
  Definition inv (st : optimizer * option cache * list (problem * res path)) : Prop :=
    let '(o, ckp, log) := st in Forall (earned log) (o_cache o) /\ file_ok log (o_file o) /\ ckp_ok log ckp /\
    Forall (fun x => proper (fst x)) log /\ forall p q, In (p, Ok q) log -> exists k, make_key sym p = Ok k /\ earned log (k, q).
  Lemma earned_app log m kq : earned log kq -> earned (log ++ m) kq.
  Proof. intros (p & lim & H & R). exists p, lim. split; auto. rewrite map_app. apply in_or_app. auto. Qed.
  Lemma earned_all log m c : Forall (earned log) c -> Forall (earned (log ++ m)) c.
  Proof. apply Forall_impl. intros. now apply earned_app. Qed.
  Lemma add_spec k q o : cache_get k (o_cache o) = None -> exists o' r, add_path k q o = (o', r) /\ o_cache o' = cache_add k q (o_cache o) /\ o_save o' = o_save o /\ o_limit o' = o_limit o /\
    cache_get k (o_cache o') = Some q /\ (o_file o' = match o_file o with Some Directory => Some Directory | Some _ => Some (Holds (o_cache o')) | None => None end) /\
    (r = Ok tt \/ o_file o = Some Directory /\ is_ok r = false).
  Proof.
    intro H. unfold add_path. destruct (o_file o) as [[]|]; eexists; eexists; (split; [reflexivity|]); cbn; rewrite (get_add_new q k H), key_eqb_refl; repeat split; auto.
  Qed.
  Lemma happen_inv st e st' : inv st -> event_proper e -> happen sym search st e = Ok st' -> inv st'.
  Proof.
    destruct st as [[o ckp] log]. intros (I1 & I2 & I3 & I4 & I5) P H. destruct e as [p lim| | |]; cbn in H.
    - destruct (opt_call sym search o p lim) as [o' r] eqn:C. injection H as <-. unfold opt_call in C. cbn in P.
      assert (ID : forall r, (forall q, r = Ok q -> exists k, make_key sym p = Ok k /\ cache_get k (o_cache o) = Some q) -> inv (o, ckp, log ++ [(p, r)])).
      { intros r' Hr. split; [now apply earned_all|]. split; [destruct (o_file o) as [[]|]; cbn in *; auto; now apply earned_all|]. split; [destruct ckp; cbn in *; auto; now apply earned_all|]. split; [apply Forall_app; auto|].
        intros p' q' Hin. apply in_app_or in Hin. destruct Hin as [Hin|[Hin|[]]].
        - destruct (I5 p' q' Hin) as (k & Ek & Ea). exists k. split; auto. now apply earned_app.
        - injection Hin as <- Er. destruct (Hr q' Er) as (k & Ek & Eg). exists k. split; auto. apply earned_app. apply get_in in Eg. rewrite Forall_forall in I1. now apply I1. }
      destruct (make_key sym p) as [k|er] eqn:EK.
      2:{ injection C as <- <-. apply ID. discriminate. }
      destruct (cache_get k (o_cache o)) as [q|] eqn:EG.
      { injection C as <- <-. apply ID. intros q' [= <-]. eauto. }
      destruct (search p (or_limit lim (o_limit o))) as [q|er] eqn:ES.
      2:{ injection C as <- <-. apply ID. discriminate. }
      destruct (@add_spec k q o EG) as (o1 & r1 & A1 & A2 & A3 & A4 & A5 & A6 & A7). rewrite A1, A5 in C. injection C as <- <-.
      set (log' := log ++ _). assert (EP : earned log' (k, q)). { exists p, (or_limit lim (o_limit o)). split; auto. unfold log'. rewrite map_app. apply in_or_app. right. now left. }
      assert (F1 : Forall (earned log') (o_cache o1)). { rewrite A2. apply Forall_forall. intros kq Hk. apply (add_new_in EG) in Hk. destruct Hk as [Hk| -> ]; auto. apply earned_app. rewrite Forall_forall in I1. auto. }
      split; auto. split. { rewrite A6. destruct (o_file o) as [[]|]; cbn; auto. } split; [destruct ckp; cbn in *; auto; now apply earned_all|]. split; [apply Forall_app; auto|].
      intros p' q' Hin. apply in_app_or in Hin. destruct Hin as [Hin|[Hin|[]]].
      + destruct (I5 p' q' Hin) as (k' & Ek & Ea). exists k'. split; auto. now apply earned_app.
      + assert (p' = p) by congruence. subst p'. assert (Er : (match r1 with Ok _ => Ok q | Err e => Err e end) = Ok q') by congruence. destruct A7 as [ -> |(_ & A7)]; [|destruct r1; discriminate]. injection Er as <-. exists k. auto.
    - injection H as <-. refine (conj I1 (conj I2 (conj _ (conj I4 I5)))). unfold opt_store. destruct (o_save o); auto.
    - injection H as <-. unfold opt_restore. destruct ckp as [c|]; [|exact (conj I1 (conj I2 (conj I3 (conj I4 I5))))]. exact (conj I3 (conj I2 (conj I3 (conj I4 I5)))).
    - unfold opt_init in H. destruct (o_file o) as [[]|]; try discriminate; cbn in H; injection H as <-; (refine (conj _ (conj _ (conj I3 (conj I4 I5)))); cbn; auto).
  Qed.
  Lemma history_inv es : forall st st', inv st -> Forall event_proper es -> foldM (happen sym search) es st = Ok st' -> inv st'.
  Proof.
    induction es as [|e es IH]; intros st st' I F H; cbn in H; [now injection H as <-|]. inversion F; subst. destruct (happen sym search st e) as [st1|] eqn:E; [|discriminate]. cbn in H. apply (IH st1); auto. eapply happen_inv; eauto.
  Qed.
  Theorem answers_ok f save lim o es o' ckp log : opt_init f save lim = Ok o -> o_cache o = [] -> Forall event_proper es -> history sym search o es = Ok (o', ckp, log) ->
    forall p q, In (p, Ok q) log -> exists p0 lim0, In p0 (map fst log) /\ same_up_to_names p0 p /\ search p0 lim0 = Ok q.
  Proof.
    intros HI HE F H p q Hin. assert (I : inv (o, None, [])). { split; [rewrite HE; constructor|]. split; [|repeat split; cbn; auto; intros ? ? []]. unfold opt_init in HI. destruct f as [[]|]; try discriminate; injection HI as <-; cbn in *; auto. subst. constructor. }
    apply (history_inv I F) in H. destruct H as (_ & _ & _ & I4 & I5). destruct (I5 p q Hin) as (k & Ek & p0 & lim0 & H1 & H2 & H3). exists p0, lim0. split; auto. split; auto. cbn in H2. rewrite Forall_forall in I4.
    apply (@key_same sym sym_inj); [|apply (I4 (p, Ok q) Hin)|eauto]. apply in_map_iff in H1. destruct H1 as ([p1 r1] & <- & H1). apply (I4 _ H1).
  Qed.
End Hist.
(** a call keeps what is in the cache *)
Lemma call_keeps sym search o p lim k q : cache_get k (o_cache o) = Some q -> cache_get k (o_cache (fst (opt_call sym search o p lim))) = Some q.
Proof.
  intro H. unfold opt_call. destruct (make_key sym p) as [k'|]; auto. destruct (cache_get k' (o_cache o)) eqn:EG; auto. destruct (search p _) as [q'|]; auto. destruct (@add_spec k' q' o EG) as (o1 & r1 & A1 & A2 & _). rewrite A1. cbn. rewrite A2, (get_add_new q' k EG).
  destruct (key_eqb k k') eqn:E; auto. apply key_eqb_ok in E. congruence.
Qed.
Lemma call_stores sym search o p lim q : snd (opt_call sym search o p lim) = Ok q -> exists k, make_key sym p = Ok k /\ cache_get k (o_cache (fst (opt_call sym search o p lim))) = Some q.
Proof.
  unfold opt_call. destruct (make_key sym p) as [k|]; [|discriminate]. destruct (cache_get k (o_cache o)) as [q0|] eqn:EG; [intros [= <-]; eauto|]. destruct (search p _) as [q'|]; [|discriminate]. destruct (@add_spec k q' o EG) as (o1 & r1 & A1 & A2 & _ & _ & A5 & _ & A7). rewrite A1. cbn. rewrite A5.
  destruct r1; [|discriminate]. intros [= <-]. eauto.
Qed.
Lemma calls_keep sym es : forall st k q, cache_get k (o_cache st) = Some q -> cache_get k (o_cache (fold_left (fun o (c : (problem -> option nat -> res path) * problem * option nat) => fst (opt_call sym (fst (fst c)) o (snd (fst c)) (snd c))) es st)) = Some q.
Proof. induction es as [|[[s p] lim] es IH]; intros st k q H; cbn; auto. apply IH. now apply call_keeps. Qed.
(** the file holds the cache *)
Definition saved (o : optimizer) : Prop := exists f, o_file o = Some f /\ exists o1, opt_init (Some f) (o_save o) (o_limit o) = Ok o1 /\ o_cache o1 = o_cache o /\ f <> Missing.
Lemma call_saved sym search o p lim : saved o -> saved (fst (opt_call sym search o p lim)).
Proof.
  intros (f & Ef & o1 & E1 & E2 & NM). unfold opt_call. destruct (make_key sym p) as [k|]; [|exists f; eauto]. destruct (cache_get k (o_cache o)) eqn:EG; [exists f; eauto|]. destruct (search p _) as [q|]; [|exists f; eauto].
  destruct (@add_spec k q o EG) as (o2 & r & A1 & A2 & A3 & A4 & A5 & A6 & A7). rewrite A1. cbn [fst]. rewrite Ef in A6. destruct f; try discriminate; try contradiction; (exists (Holds (o_cache o2)); split; [exact A6|]; eexists; split; [reflexivity|]; split; [reflexivity|discriminate]).
Qed.
