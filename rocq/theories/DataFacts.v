From Verif Require Import PyBase PyFacts DataModel.
Set Implicit Arguments. Unset Strict Implicit.

Lemma ceil_div_bounds n b : 0 < b -> ceil_div n b * b >= n /\ (0 < n -> (ceil_div n b - 1) * b < n).
Proof.
  intro B. unfold ceil_div. pose proof (Nat.div_mod (n + b - 1) b ltac:(lia)) as D.
  pose proof (Nat.mod_upper_bound (n + b - 1) b ltac:(lia)) as M.
  set (q := (n + b - 1) / b) in *. set (r := (n + b - 1) mod b) in *.
  rewrite (Nat.mul_comm b q) in D. split.
  - lia.
  - intros. destruct q; cbn in *; lia.
Qed.

Lemma skipn_skipn' A n : forall m (l : list A), skipn m (skipn n l) = skipn (n + m) l.
Proof. induction n; intros m l; cbn; auto. destruct l; cbn; auto. now rewrite skipn_nil. Qed.

(** ** chunks: the specification of batching *)
Section Ch.
  Variable A : Type.
  Definition slice (l : list A) (s b : nat) : list A := py_slice l (Some (Z.of_nat s)) (Some (Z.of_nat (s + b))).
  Lemma slice_eq (l : list A) s b : slice l s b = firstn b (skipn s l).
  Proof.
    unfold slice, py_slice, adj.
    rewrite (proj2 (Z.ltb_ge (Z.of_nat s) 0)) by lia. rewrite (proj2 (Z.ltb_ge (Z.of_nat (s + b)) 0)) by lia.
    rewrite !Nat2Z.id.
    destruct (Nat.le_gt_cases (List.length l) s) as [L|L].
    - rewrite (skipn_all2 (n := s) l) by lia. rewrite (skipn_all2 (n := Nat.min s (List.length l)) l) by lia. now rewrite !firstn_nil.
    - rewrite (Nat.min_l s) by lia.
      destruct (Nat.le_gt_cases (List.length l) (s + b)).
      + rewrite !firstn_all2; auto; rewrite skipn_length; lia.
      + f_equal. lia.
  Qed.
  Definition chunks (l : list A) (b n : nat) : list (list A) := map (fun i => firstn b (skipn (i * b) l)) (seq 0 n).
  Lemma chunks_concat_gen b n : forall k (l : list A),
    List.concat (map (fun i => firstn b (skipn (i * b) l)) (seq k n)) = firstn (n * b) (skipn (k * b) l).
  Proof.
    induction n; intros k l; cbn [seq map List.concat Nat.mul]; auto.
    rewrite IHn. cbn [Nat.mul].
    rewrite <- (firstn_skipn b (skipn (k * b) l)) at 2. rewrite firstn_app.
    destruct (Nat.le_gt_cases b (List.length (skipn (k * b) l))) as [L|L].
    - rewrite firstn_length_le by auto. rewrite firstn_firstn, Nat.min_r by lia.
      rewrite skipn_skipn'. f_equal. replace (b + n * b - b) with (n * b) by lia. f_equal. f_equal. lia.
    - rewrite (firstn_all2 (n := b)) by lia. rewrite (firstn_all2 (n := b + n * b)) by lia.
      rewrite (skipn_all2 (n := b + k * b)) by (rewrite skipn_length in L; lia).
      rewrite (skipn_all2 (n := b)) by lia. now rewrite !firstn_nil.
  Qed.
  Lemma chunks_concat (l : list A) b n : List.length l <= n * b -> List.concat (chunks l b n) = l.
  Proof. intro H. unfold chunks. rewrite chunks_concat_gen. cbn. now apply firstn_all2. Qed.
End Ch.

Section Ds.
  Variables X Y : Type.
  Variable rnd : list (X * Y) -> list (X * Y).

  Lemma init_ok d t bs sh (ds : dataset X Y) : dataset_init d t bs sh = Ok ds ->
    data ds = d /\ targets ds = t /\ shuffle ds = sh /\ List.length d = List.length t /\
    batch_size ds = (if bs =? 0 then List.length d else bs) /\ 0 < batch_size ds /\
    batches_per_epoch ds = ceil_div (List.length d) (batch_size ds).
  Proof.
    unfold dataset_init. destruct (Nat.eqb_spec (List.length d) (List.length t)) as [E|]; cbn [negb]; [|discriminate].
    destruct (Nat.eqb_spec (if bs =? 0 then List.length d else bs) 0) as [|N]; [discriminate|]. intros [= <-]. cbn. repeat split; auto; lia.
  Qed.
  Lemma init_iff d t bs sh : List.length d = List.length t -> (d <> [] \/ bs <> 0) -> exists ds : dataset X Y, dataset_init d t bs sh = Ok ds.
  Proof.
    intros E H. unfold dataset_init. rewrite E, Nat.eqb_refl. cbn [negb].
    destruct (Nat.eqb_spec (if bs =? 0 then List.length t else bs) 0) as [Z|N]; eauto. exfalso.
    destruct (Nat.eqb_spec bs 0); [|lia]. destruct H as [H|H]; [|lia]. destruct d; [congruence|]. cbn in E. lia.
  Qed.

  Lemma combine_fst_snd {A B} (j : list (A * B)) : combine (map fst j) (map snd j) = j.
  Proof. induction j as [|[]]; cbn; congruence. Qed.
  Lemma map_fst_combine {A B} (a : list A) (b : list B) : List.length a = List.length b -> map fst (combine a b) = a.
  Proof. revert b; induction a; intros [|]; cbn; intros; try lia; auto. now rewrite IHa by lia. Qed.
  Lemma map_snd_combine {A B} (a : list A) (b : list B) : List.length a = List.length b -> map snd (combine a b) = b.
  Proof. revert b; induction a; intros [|]; cbn; intros; try lia; auto. now rewrite IHa by lia. Qed.

  (** flatten batches back into (datum, target) pairs *)
  Definition pairs (bs : list (list X * list Y)) : list (X * Y) :=
    List.concat (map (fun b => combine (fst b) (snd b)) bs).

  Lemma combine_firstn_skipn {A B} n s (a : list A) (b : list B) :
    combine (firstn n (skipn s a)) (firstn n (skipn s b)) = firstn n (skipn s (combine a b)).
  Proof. rewrite <- combine_firstn. f_equal. revert b s; induction a; intros [|] [|]; cbn; auto. now rewrite combine_nil. Qed.

  Hypothesis rnd_perm : forall l, Permutation (rnd l) l.

  Lemma iterate_ok d t bs sh (ds : dataset X Y) : dataset_init d t bs sh = Ok ds -> (sh = true -> d <> []) ->
    exists j, Permutation j (combine d t) /\ (sh = false -> j = combine d t) /\
      iterate rnd ds = Ok (map (fun i => (firstn (batch_size ds) (skipn (i * batch_size ds) (map fst j)),
                                          firstn (batch_size ds) (skipn (i * batch_size ds) (map snd j))))
                               (seq 0 (ceil_div (List.length d) (batch_size ds)))).
  Proof.
    intros I NE. destruct (init_ok I) as (Ed & Et & Es & EL & Eb & B & _).
    unfold iterate. rewrite Es, Ed, Et. destruct sh.
    - exists (rnd (combine d t)). split; [apply rnd_perm|]. split; [discriminate|].
      unfold shuffle_data. pose proof (rnd_perm (combine d t)) as P.
      destruct (rnd (combine d t)) as [|x j] eqn:E.
      + apply Permutation_nil in P. destruct d; [now destruct (NE eq_refl)|]. destruct t; cbn in *; [lia|discriminate].
      + cbn [bind]. f_equal. unfold range_step. rewrite map_map. apply map_ext. intro i. cbn zeta.
        change (py_slice ?l (Some (Z.of_nat ?s)) (Some (Z.of_nat (?s + ?b)))) with (slice l s b). now rewrite !slice_eq.
    - exists (combine d t). split; auto. split; auto. cbn [bind]. f_equal. unfold range_step. rewrite map_map. apply map_ext. intro i. cbn zeta.
      change (py_slice ?l (Some (Z.of_nat ?s)) (Some (Z.of_nat (?s + ?b)))) with (slice l s b).
      now rewrite !slice_eq, map_fst_combine, map_snd_combine.
  Qed.

  Lemma iterate_spec d t bs sh (ds : dataset X Y) : dataset_init d t bs sh = Ok ds -> (sh = true -> d <> []) ->
    exists bts, iterate rnd ds = Ok bts /\
      List.length bts = batches_per_epoch ds /\
      Permutation (pairs bts) (combine d t) /\
      (sh = false -> List.concat (map fst bts) = d /\ List.concat (map snd bts) = t) /\
      (forall b, In b bts -> List.length (fst b) = List.length (snd b) /\ fst b <> []) /\
      (forall i b, S i < List.length bts -> nth_error bts i = Some b -> List.length (fst b) = batch_size ds) /\
      (forall b, In b bts -> List.length (fst b) <= batch_size ds).
  Proof.
    intros I NE. destruct (init_ok I) as (Ed & Et & Es & EL & Eb & B & Ebp).
    destruct (iterate_ok I NE) as (j & P & J & E).
    set (b := batch_size ds) in *. set (n := ceil_div (List.length d) b) in *.
    destruct (ceil_div_bounds (List.length d) B) as [N1 N2]. fold n in N1, N2.
    assert (Lj : List.length j = List.length d) by (rewrite (Permutation_length P), combine_length; lia).
    eexists; split; [exact E|]. split; [now rewrite map_length, seq_length, Ebp|].
    assert (Lb : forall i, i < n -> List.length (firstn b (skipn (i * b) (map fst j))) = Nat.min b (List.length d - i * b)).
    { intros i Hi. rewrite firstn_length, skipn_length, map_length. lia. }
    assert (Hn : forall i, i < n -> i * b < List.length d).
    { intros i Hi. destruct d; [exfalso; subst n; unfold ceil_div in Hi; cbn [List.length Nat.add] in Hi; rewrite Nat.div_small in Hi; lia|].
      assert (i * b <= (n - 1) * b) by (apply Nat.mul_le_mono_r; lia). specialize (N2 ltac:(cbn; lia)). lia. }
    split; [|split; [|split; [|split]]].
    - unfold pairs. rewrite map_map. cbn [fst snd].
      erewrite map_ext; [|intro; rewrite combine_firstn_skipn, combine_fst_snd; reflexivity].
      fold (chunks j b n). rewrite chunks_concat; [auto|lia].
    - intros Sh. rewrite !map_map. cbn [fst snd]. fold (chunks (map fst j) b n) (chunks (map snd j) b n).
      rewrite !chunks_concat by (rewrite map_length; lia). rewrite (J Sh). now rewrite map_fst_combine, map_snd_combine.
    - intros bt H. apply in_map_iff in H. destruct H as (i & <- & Hi). apply in_seq in Hi. cbn [fst snd].
      specialize (Lb i ltac:(lia)). specialize (Hn i ltac:(lia)). split.
      + rewrite Lb, firstn_length, skipn_length, map_length. lia.
      + intro C. rewrite C in Lb. cbn in Lb. lia.
    - intros i bt Hi H. rewrite map_length, seq_length in Hi. rewrite nth_error_map, (nth_error_nth' _ 0) in H by (rewrite seq_length; lia).
      rewrite seq_nth in H by lia. cbn in H. injection H as <-. cbn [fst]. rewrite Lb by lia.
      assert (S i * b < List.length d) by (apply Hn; lia). cbn [Nat.mul] in H. lia.
    - intros bt H. apply in_map_iff in H. destruct H as (i & <- & Hi). cbn [fst]. rewrite firstn_length. lia.
  Qed.
End Ds.

(** ** Checkpoint *)
Lemma dict_get_set V (d : dict V) k v k' : dict_get (dict_set d k v) k' = if String.eqb k' k then Some v else dict_get d k'.
Proof.
  induction d as [|[k0 v0] d IH]; cbn.
  - now destruct (String.eqb k' k).
  - destruct (String.eqb_spec k k0) as [->|N]; cbn.
    + destruct (String.eqb_spec k' k0); auto.
    + destruct (String.eqb_spec k' k0) as [->|]; auto.
      destruct (String.eqb_spec k0 k); congruence.
Qed.
Fixpoint last_value {V} (k : string) (kvs : dict V) : option V :=
  match kvs with
  | [] => None
  | (k', v) :: r => match last_value k r with Some x => Some x | None => if String.eqb k k' then Some v else None end
  end.
Lemma add_many_get V (kvs : dict V) : forall d k, dict_get (add_many d kvs) k = match last_value k kvs with Some v => Some v | None => dict_get d k end.
Proof.
  induction kvs as [|[k0 v0] r IH]; intros d k; cbn [last_value]; auto.
  change (add_many d ((k0, v0) :: r)) with (add_many (dict_set d k0 v0) r). rewrite IH. destruct (last_value k r); auto. rewrite dict_get_set. now destruct (String.eqb k k0).
Qed.

Section Ck.
  Variables V bytes : Type.
  Variable enc : dict V -> list bytes.
  Variable dec : list bytes -> option (dict V).
  Variable dir_ok : string -> bool.
  Hypothesis dec_enc : forall d, dec (enc d) = Some d.

  (** the abstract state: finite maps as functions *)
  Definition fmap := string -> option V.
  Definition amem (ops : list (op V)) : fmap * (string -> option fmap) :=
    fold_left (fun '(m, f) o =>
      match o with
      | Set_ k v => ((fun x => if String.eqb x k then Some v else m x), f)
      | AddMany kvs => ((fun x => match last_value x kvs with Some v => Some v | None => m x end), f)
      | ToFile _ p => if dir_ok p then ((fun _ => None), fun q => if String.eqb q p then Some m else f q) else (m, f)
      | FromFile _ p => match f p with Some m' => (m', f) | None => (m, f) end
      end) ops (fun _ => None, fun _ => None).

  Definition agree (w : world V bytes) (a : fmap * (string -> option fmap)) : Prop :=
    (forall k, dict_get (mem w) k = fst a k) /\
    (forall p, match fs w p, snd a p with
               | None, None => True
               | Some b, Some m => exists d, dec b = Some d /\ forall k, dict_get d k = m k
               | _, _ => False
               end).
  Lemma run_agree ops : agree (run enc dec dir_ok ops) (amem ops).
  Proof.
    induction ops as [|o ops IH] using rev_ind.
    - split; cbn; auto.
    - unfold run, amem. rewrite !fold_left_app. fold (run enc dec dir_ok ops) (amem ops). cbn [fold_left].
      destruct (run enc dec dir_ok ops) as [m f]. destruct (amem ops) as [am af]. destruct IH as [IM IF]. cbn [mem fs fst snd] in *.
      destruct o; cbn [step].
      + split; cbn [mem fs fst snd]; auto. intro. rewrite dict_get_set. now destruct (String.eqb _ _).
      + split; cbn [mem fs fst snd]; auto. intro. rewrite add_many_get. now destruct (last_value _ _).
      + unfold to_file. destruct (dir_ok path); cbn [fst snd]; [|split; auto]. split; cbn [mem fs fst snd]; auto.
        intro p. unfold write. destruct (String.eqb p path); [|apply IF]. exists m. split; auto.
      + unfold from_file. cbn [fs]. specialize (IF path) as IP. destruct (f path), (af path); try contradiction; [|split; auto].
        destruct IP as (d & E & G). rewrite E. split; auto.
  Qed.

  Lemma getitem_refines ops k : ckp_getitem (mem (run enc dec dir_ok ops)) k =
    match fst (amem ops) k with Some v => Ok v | None => Err KeyError end.
  Proof. unfold ckp_getitem. now rewrite (proj1 (run_agree ops)). Qed.

  Lemma file_round_trip w p : dir_ok p = true ->
    let '(ok, w') := to_file enc dir_ok w p in
    ok = true /\ from_file dec (fs w') p = Loaded (mem w) /\ mem w' = [] /\ (forall q, q <> p -> fs w' q = fs w q).
  Proof.
    intro D. unfold to_file. rewrite D. cbn. unfold from_file, write. rewrite String.eqb_refl, dec_enc. repeat split; auto.
    intros q N. destruct (String.eqb_spec q p); congruence.
  Qed.

  (** ** crash *)
  Definition reads (f : string -> option (list bytes)) p := from_file dec f p.
  Lemma crash_cases w p f : In f (crash_states enc dir_ok w p) ->
    f = fs w \/ exists n, n <= List.length (enc (mem w)) /\ f p = Some (firstn n (enc (mem w))).
  Proof.
    unfold crash_states. intros [<-|H]; auto. destruct (dir_ok p); [|contradiction].
    apply in_map_iff in H. destruct H as (n & <- & Hn). apply in_seq in Hn. right. exists n. split; [lia|].
    unfold write. now rewrite String.eqb_refl.
  Qed.
  Lemma crash_safe_ends w p f : In f (crash_states enc dir_ok w p) -> dir_ok p = true ->
    (f = fs w \/ f p = Some (enc (mem w))) -> reads f p = reads (fs w) p \/ reads f p = Loaded (mem w).
  Proof.
    intros _ _ [->|H]; auto. right. unfold reads, from_file. now rewrite H, dec_enc.
  Qed.
  Lemma crash_loses w p : dec [] = None -> dir_ok p = true ->
    exists f, In f (crash_states enc dir_ok w p) /\ reads f p = Corrupt.
  Proof.
    intros D O. exists (write (fs w) p []). split.
    - unfold crash_states. rewrite O. right. apply in_map_iff. exists 0. split; auto. apply in_seq. lia.
    - unfold reads, from_file, write. now rewrite String.eqb_refl, D.
  Qed.
  Lemma crash_other_files w p f q : In f (crash_states enc dir_ok w p) -> q <> p -> f q = fs w q.
  Proof.
    unfold crash_states. intros [<-|H] N; auto. destruct (dir_ok p); [|contradiction].
    apply in_map_iff in H. destruct H as (n & <- & _). unfold write. destruct (String.eqb_spec q p); congruence.
  Qed.
End Ck.

Lemma getitem_spec X Y (d : list X) (t : list Y) bs sh ds i : dataset_init d t bs sh = Ok ds ->
  let n := Z.of_nat (List.length d) in
  ((- n <= i < n)%Z -> exists p, getitem ds i = Ok p /\ nth_error (combine d t) (Z.to_nat (if (i <? 0)%Z then n + i else i)%Z) = Some p) /\
  (~ (- n <= i < n)%Z -> getitem ds i = Err IndexError).
Proof.
  intros H n. unfold dataset_init in H. destruct (Nat.eqb_spec (List.length d) (List.length t)) as [L|]; [|discriminate]. cbn [negb] in H.
  destruct (_ =? 0) in H; [discriminate|]. injection H as <-.
  unfold getitem, py_index. cbn [data targets]. rewrite <- L. fold n. split; intro H.
  - set (j := if (i <? 0)%Z then (n + i)%Z else i). assert (J : (0 <= j < n)%Z) by (unfold j; destruct (Z.ltb_spec i 0); lia).
    assert (E : ((0 <=? j) && (j <? n))%Z = true) by (apply andb_true_intro; split; [apply Z.leb_le|apply Z.ltb_lt]; lia). rewrite E.
    destruct (nth_error d (Z.to_nat j)) as [x|] eqn:Ex; [|apply nth_error_None in Ex; unfold n in *; lia].
    destruct (nth_error t (Z.to_nat j)) as [y|] eqn:Ey; [|apply nth_error_None in Ey; unfold n in *; lia].
    cbn. exists (x, y). split; auto. revert Ex Ey. generalize (Z.to_nat j) as k. clear. revert t. induction d as [|a d IH]; intros [|b t] [|k]; cbn; intros; try discriminate; try congruence; auto.
  - assert (E : forall j, j = (if (i <? 0)%Z then (n + i)%Z else i) -> ((0 <=? j) && (j <? n))%Z = false).
    { intros j ->. apply andb_false_iff. destruct (Z.ltb_spec i 0); [left; apply Z.leb_gt|right; apply Z.ltb_ge]; lia. }
    rewrite (E _ eq_refl). reflexivity.
Qed.
