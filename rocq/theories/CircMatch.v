(** Wire matching in the DisCoCirc reader (C71, lemmas only). *)
From Coq Require Import Permutation Sorted.
From Verif Require Import PyBase PyFacts TyModel TyFacts DiagModel DiagSpec DiagFacts DiagRot DiagPerm MiscModel MiscFacts TreeModel CircModel CircSpec CircPerm CircRun.
Close Scope string_scope. Set Implicit Arguments. Unset Strict Implicit.

Section Match.
  Variables (K : Type) (eqk : K -> K -> bool).
  Hypothesis eqk_ok : forall a b, eqk a b = true <-> a = b.
  Notation index_of := (index_of eqk). Notation news := (news eqk). Notation mem := (mem eqk).
  Lemma mem_in e l : mem e l = true <-> In e l.
  Proof. unfold CircSpec.mem. rewrite existsb_exists. split; [intros (x & Hx & ->%eqk_ok); exact Hx | intros H; exists e; split; [exact H | now apply eqk_ok]]. Qed.
  Lemma mem_notin e l : mem e l = false <-> ~ In e l.
  Proof. rewrite <- mem_in. now destruct (mem e l). Qed.
  Lemma index_lt e l : In e l -> index_of e l < List.length l.
  Proof. induction l as [|x l IH]; [easy|]. cbn. destruct (eqk x e) eqn:E; [lia|]. intros [-> | H]; [rewrite (proj2 (eqk_ok e e) eq_refl) in E; discriminate|]. specialize (IH H). lia. Qed.
  Lemma index_app e l m : In e l -> index_of e (l ++ m) = index_of e l.
  Proof. induction l as [|x l IH]; [easy|]. cbn. destruct (eqk x e) eqn:E; [reflexivity|]. intros [-> | H]; [rewrite (proj2 (eqk_ok e e) eq_refl) in E; discriminate|]. now rewrite IH. Qed.
  Lemma index_nth d l : NoDup l -> forall i, i < List.length l -> index_of (nth i l d) l = i.
  Proof.
    induction 1 as [|x l N D IH]; intros [|i] L; cbn in *; try lia; [now rewrite (proj2 (eqk_ok x x) eq_refl)|]. destruct (eqk x (nth i l d)) eqn:E; [|rewrite IH by lia; reflexivity]. apply eqk_ok in E. exfalso. apply N. rewrite E. apply nth_In. lia.
  Qed.
  Lemma nth_index d e l : In e l -> nth (index_of e l) l d = e.
  Proof. induction l as [|x l IH]; [easy|]. cbn. destruct (eqk x e) eqn:E; [intros _; now apply eqk_ok|]. intros [-> | H]; [rewrite (proj2 (eqk_ok e e) eq_refl) in E; discriminate | now apply IH]. Qed.
  (** the dictionary of entities and wires *)
  Definition dict_of (es : list K) : list (K * nat) := combine es (seq 0 (List.length es)).
  Lemma dict_keys es : map fst (dict_of es) = es.
  Proof. unfold dict_of. generalize 0. induction es as [|e es IH]; intros k; cbn; [reflexivity|]. now rewrite IH. Qed.
  Lemma dict_vals es : map snd (dict_of es) = seq 0 (List.length es).
  Proof. unfold dict_of. generalize 0. induction es as [|e es IH]; intros k; cbn; [reflexivity|]. now rewrite IH. Qed.
  Lemma dict_len es : List.length (dict_of es) = List.length es.
  Proof. unfold dict_of. rewrite combine_length, seq_length. lia. Qed.
  Lemma dict_get es e : d_get eqk e (dict_of es) = if mem e es then Some (index_of e es) else None.
  Proof.
    unfold dict_of. assert (G : forall k, d_get eqk e (combine es (seq k (List.length es))) = if mem e es then Some (k + index_of e es) else None); [|exact (G 0)].
    induction es as [|x es IH]; intros k; [reflexivity|]. cbn [List.length seq combine CircSpec.mem existsb CircSpec.index_of]. unfold d_get in *. cbn [find fst]. destruct (eqk x e); cbn [orb snd]; [f_equal; lia|]. rewrite IH. fold (mem e es). destruct (mem e es); [f_equal; lia | reflexivity].
  Qed.
  Lemma dict_snoc es e : ~ In e es -> d_set eqk e (List.length (dict_of es)) (dict_of es) = dict_of (es ++ [e]).
  Proof. intros N. rewrite (d_set_new eqk_ok) by (now rewrite dict_keys). rewrite dict_len. unfold dict_of. rewrite app_length. cbn [List.length]. rewrite Nat.add_1_r, seq_S, combine_snoc by now rewrite seq_length. reflexivity. Qed.

  Lemma news_cons B known e (b : B) l : news known ((e, b) :: l) = if mem e known then news known l else (e, b) :: news (known ++ [e]) l.
  Proof. reflexivity. Qed.
  Lemma news_nodup B known (l : list (K * B)) : NoDup known -> NoDup (known ++ map fst (news known l)).
  Proof.
    revert known. induction l as [|[e b] l IH]; intros known N; [cbn; now rewrite app_nil_r|]. rewrite news_cons. destruct (mem e known) eqn:E; [now apply IH|]. cbn [map fst]. change (e :: map fst (news (known ++ [e]) l)) with ([e] ++ map fst (news (known ++ [e]) l)). rewrite app_assoc. apply IH.
    apply mem_notin in E. apply Permutation_NoDup with (l := e :: known); [apply Permutation_cons_append | now constructor].
  Qed.
  Lemma news_all B known (l : list (K * B)) e : In e (map fst l) -> In e (known ++ map fst (news known l)).
  Proof.
    revert known. induction l as [|[x b] l IH]; intros known; [easy|]. rewrite news_cons. cbn [map fst In]. intros [-> | H].
    - destruct (mem e known) eqn:E; [apply mem_in in E; now apply in_or_app; left|]. apply in_or_app. right. now left.
    - destruct (mem x known); [now apply IH|]. cbn [map fst]. change (x :: map fst (news (known ++ [x]) l)) with ([x] ++ map fst (news (known ++ [x]) l)). rewrite app_assoc. now apply IH.
  Qed.
  Lemma news_sub B known (l : list (K * B)) p : In p (news known l) -> In p l.
  Proof. revert known. induction l as [|[x b] l IH]; intros known; [easy|]. rewrite news_cons. destruct (mem x known); [intros H; right; eapply IH; exact H|]. intros [<- | H]; [now left | right; eapply IH; exact H]. Qed.

  Lemma assign_fold nouns l : forall pre bs j st es, nouns = pre ++ bs -> List.length pre = j -> List.length bs = List.length l -> m_dict st = dict_of es -> NoDup es ->
    let F := news es (combine l bs) in let es' := es ++ map fst F in
    exists m, foldM (assign eqk nouns) (combine (seq j (List.length l)) l) st = Ok m /\ m_dict m = dict_of es' /\ m_new m = m_new st + List.length F /\ m_boxes m = m_boxes st ++ map snd F /\ m_inds m = m_inds st ++ map fst F /\
      m_ids m = m_ids st ++ map (fun e => index_of e es') l /\ m_anc m = filter (fun v => negb (existsb (Nat.eqb v) (map (fun e => index_of e es') l))) (m_anc st).
  Proof.
    induction l as [|e l IH]; intros pre bs j st es En Ep Eb Ed N F es'.
    - exists st. unfold es', F. destruct bs; [|discriminate]. cbn. rewrite !app_nil_r. repeat split; auto. clear. induction (m_anc st); cbn; congruence.
    - destruct bs as [|b bs]; [discriminate|]. injection Eb as Eb. cbn [List.length seq combine foldM]. unfold assign at 1. rewrite Ed, dict_get.
      assert (Step : exists st1 es1, (do st' <- (match (if mem e es then Some (index_of e es) else None) with Some _ => Ok st | None => match nth_error nouns j with None => Err IndexError | Some b => Ok (MS (d_set eqk e (List.length (m_dict st)) (m_dict st)) (S (m_new st)) (m_boxes st ++ [b]) (m_inds st ++ [e]) (m_anc st) (m_ids st)) end end);
                match d_get eqk e (m_dict st') with None => Err KeyError | Some w => Ok (MS (m_dict st') (m_new st') (m_boxes st') (m_inds st') (filter (fun v => negb (v =? w)%nat) (m_anc st')) (m_ids st' ++ [w])) end) =
              Ok st1 /\ m_dict st1 = dict_of es1 /\ NoDup es1 /\ In e es1 /\ (exists F1, es1 = es ++ map fst F1 /\ news es (combine (e :: l) (b :: bs)) = F1 ++ news es1 (combine l bs) /\ m_new st1 = m_new st + List.length F1 /\ m_boxes st1 = m_boxes st ++ map snd F1 /\ m_inds st1 = m_inds st ++ map fst F1) /\
              m_ids st1 = m_ids st ++ [index_of e es1] /\ m_anc st1 = filter (fun v => negb (v =? index_of e es1)) (m_anc st)).
      { destruct (mem e es) eqn:E.
        - cbn [bind]. rewrite Ed, dict_get, E. eexists _, es. split; [reflexivity|]. cbn. split; [exact Ed || reflexivity|]. split; [exact N|]. split; [now apply mem_in|]. split; [|auto]. exists []. cbn. rewrite E, !app_nil_r. auto.
        - rewrite En, nth_error_app2, Ep, Nat.sub_diag by lia. cbn [nth_error bind m_dict]. apply mem_notin in E. assert (X := dict_snoc E). rewrite Ed, X, dict_get. assert (M : mem e (es ++ [e]) = true) by (apply mem_in, in_or_app; right; now left). rewrite M.
          eexists _, (es ++ [e]). split; [reflexivity|]. cbn [m_dict m_new m_boxes m_inds m_anc m_ids]. split; [reflexivity|]. split; [apply Permutation_NoDup with (l := e :: es); [apply Permutation_cons_append | now constructor]|]. split; [now apply mem_in|]. split; [|auto].
          exists [(e, b)]. cbn. apply mem_notin in E. rewrite E. repeat split; auto; lia. }
      destruct Step as (st1 & es1 & E1 & D1 & N1 & I1 & (F1 & Ee & Ef & En1 & Eb1 & Ei1) & Ids1 & Anc1). rewrite Ed in E1. rewrite E1. clear E1. cbn [bind].
      destruct (IH (pre ++ [b]) bs (S j) st1 es1) as (m & Em & Dm & Nm & Bm & Im & Idm & Am); auto; [now rewrite <- app_assoc | rewrite app_length; cbn; lia|].
      assert (Es' : es' = es1 ++ map fst (news es1 (combine l bs))) by (unfold es', F; rewrite Ef, map_app, Ee, app_assoc; reflexivity).
      assert (Ix : index_of e es1 = index_of e es') by (rewrite Es'; symmetry; now apply index_app).
      exists m. split; [exact Em|]. rewrite Es'. split; [exact Dm|]. unfold F. rewrite Ef, !map_app, app_length. split; [lia|]. rewrite Bm, Eb1, Im, Ei1, !app_assoc. split; [reflexivity|]. split; [reflexivity|]. rewrite <- Es' in *. split.
      + rewrite Idm, Ids1, <- app_assoc. cbn [map app]. now rewrite Ix.
      + rewrite Am, Anc1, Ix. clear. induction (m_anc st) as [|v a IH]; [reflexivity|]. cbn [filter map existsb]. destruct (Nat.eqb_spec v (index_of e es')); cbn [negb orb filter]; [exact IH|]. destruct (existsb (Nat.eqb v) (map (fun e0 => index_of e0 es') l)); cbn [negb]; [exact IH | now rewrite IH].
  Qed.
  Lemma assign_all_ok es boxes inds nouns nids : NoDup es -> List.length nouns = List.length nids ->
    let F := news es (combine nids nouns) in let es' := es ++ map fst F in let slots := map (fun e => index_of e es') nids in
    exists m, assign_all eqk (dict_of es) boxes inds nouns nids = Ok m /\ m_dict m = dict_of es' /\ m_new m = List.length F /\ m_boxes m = boxes ++ map snd F /\ m_inds m = inds ++ map fst F /\ m_ids m = slots /\
      m_anc m = filter (fun v => negb (existsb (Nat.eqb v) slots)) (seq 0 (List.length es)).
  Proof.
    intros N L. destruct (@assign_fold nouns nids [] nouns 0 (MS (dict_of es) 0 boxes inds (map snd (dict_of es)) []) es eq_refl eq_refl L eq_refl N) as (m & E & A & B & C & D & G & H). exists m. rewrite dict_vals in H. cbn [m_new m_boxes m_inds m_ids m_anc] in *. rewrite dict_vals in E. unfold assign_all, enum. rewrite dict_vals. auto 10.
  Qed.
  (** every wire is used *)
  Definition wires (es nids : list K) : list nat := filter (fun v => negb (existsb (Nat.eqb v) (map (fun e => index_of e es) nids))) (seq 0 (List.length es)) ++ map (fun e => index_of e es) nids.
  Lemma wires_lt es nids : (forall e, In e nids -> In e es) -> Forall (fun w => w < List.length es) (wires es nids).
  Proof.
    intros H. apply Forall_forall. intros w Hw. apply in_app_or in Hw. destruct Hw as [Hw | Hw]; [apply filter_In in Hw; destruct Hw as [Hw _]; apply in_seq in Hw; lia|]. apply in_map_iff in Hw. destruct Hw as (e & <- & He). apply index_lt. auto.
  Qed.
  Lemma wires_all es nids w : w < List.length es -> In w (wires es nids).
  Proof.
    intros H. unfold wires. apply in_or_app. destruct (existsb (Nat.eqb w) (map (fun e => index_of e es) nids)) eqn:E; [right; apply existsb_exists in E; destruct E as (x & Hx & ->%Nat.eqb_eq); exact Hx|]. left. apply filter_In. split; [apply in_seq; lia | now rewrite E].
  Qed.
End Match.
