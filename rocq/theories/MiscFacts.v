(** Proofs about the functions of MiscModel.v. *)
From Coq Require Import Ascii.
From Verif Require Import PyBase PyFacts TyModel RewModel MiscModel MiscSpec.
Set Implicit Arguments. Unset Strict Implicit.

Section Dict.
  Variables (K V : Type) (eqk : K -> K -> bool).
  Hypothesis eqk_ok : forall a b, eqk a b = true <-> a = b.
  Lemma eqk_refl a : eqk a a = true. Proof. now apply eqk_ok. Qed.
  Lemma eqk_neq a b : a <> b -> eqk a b = false.
  Proof. intro N. destruct (eqk a b) eqn:E; auto. apply eqk_ok in E. congruence. Qed.
  Lemma d_get_set (k j : K) (v : V) m : d_get eqk k (d_set eqk j v m) = if eqk j k then Some v else d_get eqk k m.
  Proof.
    unfold d_get. induction m as [|[a x] m IH]; cbn; [destruct (eqk j k); auto|].
    destruct (eqk a j) eqn:Ea; cbn.
    - apply eqk_ok in Ea. subst. destruct (eqk j k); auto.
    - destruct (eqk a k) eqn:Ek; auto. apply eqk_ok in Ek. subst. rewrite eqk_neq; auto. intros ->. rewrite eqk_refl in Ea. discriminate.
  Qed.
  Lemma d_mem_get (k : K) (m : list (K * V)) : d_mem eqk k m = match d_get eqk k m with Some _ => true | None => false end.
  Proof. unfold d_mem, d_get. induction m as [|p m IH]; cbn; auto. destruct (eqk (fst p) k); cbn; auto. Qed.
  Lemma d_get_del (k j : K) (m : list (K * V)) : d_get eqk k (d_del eqk j m) = if eqk j k then None else d_get eqk k m.
  Proof.
    unfold d_get, d_del. induction m as [|[a x] m IH]; cbn; [destruct (eqk j k); auto|].
    destruct (eqk a j) eqn:Ea; cbn.
    - apply eqk_ok in Ea. subst. rewrite IH. destruct (eqk j k); auto.
    - destruct (eqk a k) eqn:Ek; auto. apply eqk_ok in Ek. subst. destruct (eqk j k) eqn:Ej; auto. apply eqk_ok in Ej. subst. rewrite eqk_refl in Ea. discriminate.
  Qed.
  Lemma d_get_in (k : K) (m : list (K * V)) v : d_get eqk k m = Some v -> In (k, v) m.
  Proof. unfold d_get. destruct (find _ m) as [p|] eqn:F; [|discriminate]. intros [= <-]. apply find_some in F. destruct F as [I E]. apply eqk_ok in E. subst. now destruct p. Qed.
  Lemma d_in_get (k : K) (m : list (K * V)) v : NoDup (map fst m) -> In (k, v) m -> d_get eqk k m = Some v.
  Proof.
    unfold d_get. induction m as [|[a x] m IH]; cbn; [tauto|]. intros N [E|I].
    - injection E as -> ->. now rewrite eqk_refl.
    - inversion N as [|? ? N1 N2]; subst. destruct (eqk a k) eqn:Ea; [|auto]. apply eqk_ok in Ea. subst. exfalso. apply N1. apply in_map_iff. exists (k, v). auto.
  Qed.
  Lemma d_set_new (k : K) (v : V) m : ~ In k (map fst m) -> d_set eqk k v m = m ++ [(k, v)].
  Proof.
    induction m as [|[a x] m IH]; cbn; auto. intro N. rewrite eqk_neq by (intros ->; tauto). rewrite IH; tauto.
  Qed.
  Lemma d_set_keys (k : K) (v : V) m : NoDup (map fst m) -> NoDup (map fst (d_set eqk k v m)) /\ forall j, In j (map fst (d_set eqk k v m)) <-> j = k \/ In j (map fst m).
  Proof.
    induction m as [|[a x] m IH]; cbn; intro N; [split; [repeat constructor; tauto|intro; intuition]|].
    inversion N as [|? ? N1 N2]; subst. destruct (eqk a k) eqn:E; cbn.
    - apply eqk_ok in E. subst. split; auto. intro j. intuition.
    - destruct (IH N2) as [I1 I2]. split; [constructor; auto|intro j; rewrite I2; intuition]. rewrite I2. intros [->|]; auto. rewrite eqk_refl in E. discriminate.
  Qed.
End Dict.

(** ** coreferences *)
Lemma mention_eqb_ok a b : mention_eqb a b = true <-> a = b.
Proof. destruct a, b. unfold mention_eqb. cbn. rewrite andb_true_iff, !Nat.eqb_eq. split; [intros [-> ->]; auto|intros [= -> ->]; auto]. Qed.
Lemma scorefs_in c : forall i s t, In (s, t) (scorefs i c) <-> exists j ts, s = i + j /\ nth_error c j = Some ts /\ In t ts.
Proof.
  induction c as [|x c IH]; intros i s t; cbn [scorefs].
  - split; [intros []|]. intros ([|j] & ts & _ & E & _); discriminate.
  - rewrite in_app_iff, in_map_iff, IH. split.
    + intros [(y & [= <- <-] & I)|(j & ts & -> & E & I)]; [exists 0, x|exists (S j), ts]; repeat split; auto; lia.
    + intros ([|j] & ts & -> & E & I).
      * left. injection E as ->. exists t. split; auto.
      * right. exists j, ts. repeat split; auto. lia.
Qed.
Lemma scorefs_mentions c m : In m (scorefs 0 c) <-> mentions c m.
Proof. destruct m as [s t]. rewrite scorefs_in. unfold mentions. cbn. split; [intros (j & ts & -> & E & I); eauto|intros (ts & E & I); eauto]. Qed.
Lemma scorefs_head c : forall i m ms, scorefs i c = m :: ms -> exists j r, fst m = i + j /\ nth_error c j = Some (snd m :: r) /\ forall k, k < j -> nth_error c k = Some [].
Proof.
  induction c as [|[|x s] c IH]; intros i m ms E; cbn in E; [discriminate| |].
  - destruct (IH _ _ _ E) as (j & r & E1 & E2 & E3). exists (S j), r. split; [lia|]. split; auto. intros [|k] L; auto. apply E3. lia.
  - injection E as <- _. exists 0, s. cbn. repeat split; auto; lia.
Qed.
Lemma scorefs_first c m ms : scorefs 0 c = m :: ms -> first_mention c m.
Proof. intro E. apply scorefs_head in E. destruct E as (j & r & E1 & E2 & E3). cbn in E1. subst j. exists r. auto. Qed.
Lemma first_unique c m m' : first_mention c m -> first_mention c m' -> m = m'.
Proof.
  destruct m as [i a], m' as [j b]. intros (r & E & H) (r' & E' & H'). cbn in *.
  destruct (Nat.lt_trichotomy i j) as [L|[->|L]]; [rewrite (H' _ L) in E; discriminate| |rewrite (H _ L) in E'; discriminate].
  rewrite E in E'. injection E' as -> _. auto.
Qed.
Lemma step_get c d m : d_get mention_eqb m (coref_step d c) =
  match d_get mention_eqb m d with
  | Some r => Some r
  | None => match scorefs 0 c with [] => None | f :: _ => if existsb (mention_eqb m) (scorefs 0 c) then Some f else None end
  end.
Proof.
  unfold coref_step. destruct (scorefs 0 c) as [|f ms0]; [destruct (d_get mention_eqb m d); auto|]. set (ms := f :: ms0). clearbody ms. clear ms0.
  revert d. induction ms as [|x ms IH]; intro d; cbn [fold_left existsb]; [destruct (d_get mention_eqb m d); auto|].
  rewrite IH. rewrite (d_mem_get mention_eqb x d). destruct (mention_eqb m x) eqn:E; cbn [orb].
  - apply mention_eqb_ok in E. subst x. destruct (d_get mention_eqb m d) as [r|] eqn:G; [now rewrite G|]. rewrite (d_get_set mention_eqb_ok). now rewrite (eqk_refl mention_eqb_ok).
  - destruct (d_get mention_eqb x d); auto. rewrite (d_get_set mention_eqb_ok). rewrite (eqk_neq mention_eqb_ok); auto. intros ->. rewrite (eqk_refl mention_eqb_ok) in E. discriminate.
Qed.
Lemma existsb_mention m l : existsb (mention_eqb m) l = true <-> In m l.
Proof. rewrite existsb_exists. split; [intros (x & I & E); apply mention_eqb_ok in E; now subst|intro I; exists m; split; auto; now apply mention_eqb_ok]. Qed.
Lemma corefs_get cs : forall d m r, d_get mention_eqb m (fold_left coref_step cs d) = Some r <->
  d_get mention_eqb m d = Some r \/
  (d_get mention_eqb m d = None /\ exists pre c post, cs = pre ++ c :: post /\ mentions c m /\ (forall p, In p pre -> ~ mentions p m) /\ first_mention c r).
Proof.
  induction cs as [|c cs IH]; intros d m r; cbn [fold_left].
  - split; auto. intros [|[_ (pre & c & post & E & _)]]; auto. destruct pre; discriminate.
  - rewrite IH, step_get. destruct (d_get mention_eqb m d) as [q|] eqn:G.
    + split; [intros [|[]]; [auto|discriminate]|intros [|[]]; [auto|discriminate]].
    + split.
      * intros [H|[H (pre & c' & post & -> & M & N & F)]].
        -- right. split; auto. destruct (scorefs 0 c) as [|f ms] eqn:Sc; [discriminate|]. rewrite <- Sc in H. destruct (existsb _ _) eqn:Ex; [|discriminate]. injection H as <-.
           apply existsb_mention in Ex. apply scorefs_mentions in Ex. exists [], c, cs. split; auto. split; auto. split; [intros p []|]. now apply scorefs_first in Sc.
        -- right. split; auto. exists (c :: pre), c', post. split; auto. split; auto. split; auto. intros p [<-|I]; auto.
           intro Mc. apply scorefs_mentions in Mc. destruct (scorefs 0 c) as [|f ms] eqn:Sc; [destruct Mc|]. apply existsb_mention in Mc. rewrite Mc in H. discriminate.
      * intros [|[_ (pre & c' & post & E & M & N & F)]]; [discriminate|]. destruct pre as [|p pre]; cbn in E; injection E as <- ->.
        -- left. apply scorefs_mentions in M. destruct (scorefs 0 c) as [|f ms] eqn:Sc; [destruct M|]. apply scorefs_first in Sc as F'. rewrite (first_unique F F').
           apply existsb_mention in M. now rewrite M.
        -- right. split.
           ++ destruct (scorefs 0 c) as [|f ms] eqn:Sc; auto. destruct (existsb _ _) eqn:Ex; auto. exfalso. apply existsb_mention in Ex. rewrite <- Sc in Ex. apply scorefs_mentions in Ex. apply (N c); cbn; auto.
           ++ exists pre, c', post. repeat split; auto. intros q I. apply N. cbn. auto.
Qed.
Lemma dict_get cs m r : d_get mention_eqb m (dict_from_corefs cs) = Some r <->
  exists pre c post, cs = pre ++ c :: post /\ mentions c m /\ (forall p, In p pre -> ~ mentions p m) /\ first_mention c r.
Proof. unfold dict_from_corefs. rewrite corefs_get. cbn. split; [intros [|[]]; [discriminate|auto]|auto]. Qed.
Lemma step_nodup c d : NoDup (map fst d) -> NoDup (map fst (coref_step d c)).
Proof.
  unfold coref_step. destruct (scorefs 0 c) as [|f ms0]; auto. generalize (f :: ms0) as ms. intro ms. revert d. induction ms as [|x ms IH]; intros d N; cbn; auto.
  apply IH. destruct (d_mem mention_eqb x d); auto. now apply (d_set_keys mention_eqb_ok).
Qed.
Lemma dict_nodup cs : NoDup (map fst (dict_from_corefs cs)).
Proof.
  unfold dict_from_corefs. assert (G : forall d, NoDup (map fst d) -> NoDup (map fst (fold_left coref_step cs d))).
  { induction cs as [|c cs IH]; intros d N; cbn; auto. apply IH. now apply step_nodup. }
  apply G. constructor.
Qed.
Lemma first_mentions c r : first_mention c r -> mentions c r.
Proof. intros (q & E & _). exists (snd r :: q). cbn. auto. Qed.
Lemma dict_rep cs pre c post r : cs = pre ++ c :: post -> first_mention c r -> (forall p, In p pre -> ~ mentions p r) -> d_get mention_eqb r (dict_from_corefs cs) = Some r.
Proof. intros -> F N. apply dict_get. exists pre, c, post. repeat split; auto. now apply first_mentions. Qed.
Lemma dict_some cs c m : In c cs -> mentions c m -> exists r, d_get mention_eqb m (dict_from_corefs cs) = Some r.
Proof.
  intros I M. assert (X : exists pre c' post, cs = pre ++ c' :: post /\ mentions c' m /\ (forall p, In p pre -> ~ mentions p m)).
  { clear -I M. induction cs as [|x cs IH]; [destruct I|]. destruct (existsb (mention_eqb m) (scorefs 0 x)) eqn:E.
    - exists [], x, cs. split; auto. split; [|intros p []]. apply scorefs_mentions. now apply existsb_mention.
    - assert (Nx : ~ mentions x m). { intro H. apply scorefs_mentions in H. apply existsb_mention in H. congruence. }
      destruct I as [->|I]; [tauto|]. destruct (IH I) as (pre & c' & post & -> & M' & N'). exists (x :: pre), c', post. split; auto. split; auto. intros p [<-|J]; auto. }
  destruct X as (pre & c' & post & E & M' & N'). apply scorefs_mentions in M' as M2. destruct (scorefs 0 c') as [|f ms] eqn:Sc; [destruct M2|].
  exists f. apply dict_get. exists pre, c', post. repeat split; auto. eapply scorefs_first; eauto.
Qed.

(** ** types from strings *)
Lemma split_nodot s : ~ has_dot s -> split_dot s = [s].
Proof.
  induction s as [|c s IH]; cbn; auto. intro N. destruct (Ascii.eqb_spec c "."%char); [subst; exfalso; apply N; auto|]. rewrite IH; auto.
Qed.
Lemma split_app s t : ~ has_dot s -> split_dot (append s (String "." t)) = s :: split_dot t.
Proof.
  induction s as [|c s IH]; cbn [append]; [intros _; cbn; reflexivity|]. intro N. cbn [split_dot]. destruct (Ascii.eqb_spec c "."%char); [subst; exfalso; apply N; cbn; auto|].
  rewrite IH; auto. intro H. apply N. cbn. auto.
Qed.
Lemma split_rep s c n : ~ has_dot s -> c <> "."%char -> split_dot (append s (rep_str (String "." (String c EmptyString)) n)) = s :: repeat (String c EmptyString) n.
Proof.
  intros N Nc. revert s N. induction n as [|n IH]; intros s N; cbn [rep_str repeat].
  - replace (append s EmptyString) with s; [now apply split_nodot|]. clear. induction s; cbn; congruence.
  - change (append (String "." (String c EmptyString)) (rep_str (String "." (String c EmptyString)) n)) with (String "." (append (String c EmptyString) (rep_str (String "." (String c EmptyString)) n))).
    rewrite split_app by auto. rewrite IH; auto. cbn. intros [->|[]]; auto.
Qed.
Local Ltac sing := lazymatch goal with |- [(?a, _)] = _ => refine (f_equal (fun q => [(a, q)]) _); cbn [fst snd]; lia end.
Lemma fold_rot (p : string) n : forall z x, (if String.eqb p "r" then 1 else if String.eqb p "l" then -1 else 0)%Z = z ->
  fold_left (fun t r => if String.eqb r "r" then ty_r t else if String.eqb r "l" then ty_l t else t) (repeat p n) [x] = [(fst x, snd x + z * Z.of_nat n)%Z].
Proof.
  intros z. induction n as [|n IH]; intros x Ez; cbn [repeat fold_left].
  - destruct x as [a b]. cbn [fst snd]. sing.
  - subst z. destruct (String.eqb p "r"); [|destruct (String.eqb p "l")].
    + change (ty_r [x]) with [rot_atom 1 x]. rewrite (IH _ eq_refl). unfold rot_atom. cbn [fst snd]. sing.
    + change (ty_l [x]) with [rot_atom (-1) x]. rewrite (IH _ eq_refl). unfold rot_atom. cbn [fst snd]. sing.
    + rewrite (IH _ eq_refl). sing.
Qed.
Lemma str_to_type_str a : ~ has_dot (fst a) -> str_to_type (atom_str a) = [a].
Proof.
  intro N. unfold str_to_type, atom_str. destruct a as [n z]. cbn [fst snd] in *. destruct (Z.ltb_spec z 0).
  - rewrite split_rep; auto; [|discriminate]. rewrite (@fold_rot "l" _ (-1)%Z) by reflexivity. cbn [fst snd]. sing.
  - rewrite split_rep; auto; [|discriminate]. rewrite (@fold_rot "r" _ 1%Z) by reflexivity. cbn [fst snd]. sing.
Qed.

(** ** counts *)
Lemma bits_eqb_ok a b : bits_eqb a b = true <-> a = b.
Proof. unfold bits_eqb. destruct (list_eq_dec Nat.eq_dec a b); split; congruence. Qed.
Lemma nat_eqb_ok a b : Nat.eqb a b = true <-> a = b. Proof. apply Nat.eqb_eq. Qed.
Lemma agrees_ok b ps : (forall i v, In (i, v) ps -> i < List.length b) -> exists r, agrees b ps = Ok r /\ (r = true <-> agree b ps).
Proof.
  induction ps as [|[i v] ps IH]; intro L; cbn [agrees].
  - exists true. split; auto. split; auto. intros _ i v [].
  - destruct (nth_error b i) as [x|] eqn:E; [|apply nth_error_None in E; specialize (L i v (or_introl eq_refl)); lia].
    destruct (Nat.eqb_spec x v) as [->|N].
    + destruct IH as (r & -> & R); [intros; eapply L; cbn; eauto|]. exists r. split; auto. rewrite R. unfold agree. split.
      * intros H j w [[= <- <-]|I]; auto.
      * intros H j w I. apply H. cbn. auto.
    + exists false. split; auto. split; [discriminate|]. intro H. specialize (H i v (or_introl eq_refl)). congruence.
Qed.
Lemma key_of_ok ps b : forall i pre, List.length pre = i -> key_of i b ps = map (fun j => nth j (pre ++ b) 0) (filter (fun j => negb (d_mem Nat.eqb j ps)) (seq i (List.length b))).
Proof.
  induction b as [|x b IH]; intros i pre L; cbn [key_of seq List.length filter map]; auto.
  assert (Q : key_of (S i) b ps = map (fun j => nth j (pre ++ x :: b) 0) (filter (fun j => negb (d_mem Nat.eqb j ps)) (seq (S i) (List.length b)))).
  { rewrite (IH (S i) (pre ++ [x])) by (rewrite app_length; cbn; lia). rewrite <- app_assoc. reflexivity. }
  destruct (d_mem Nat.eqb i ps); cbn [negb]; [exact Q|]. cbn [map]. rewrite app_nth2, L, Nat.sub_diag by lia. cbn [nth]. f_equal. exact Q.
Qed.
Lemma key_remaining ps b : key_of 0 b ps = remaining b ps.
Proof. unfold remaining. rewrite (@key_of_ok ps b 0 []) by reflexivity. cbn [app]. f_equal. apply filter_ext. intro j. f_equal.
  unfold d_mem. induction ps as [|p ps IH]; cbn; auto. rewrite Nat.eqb_sym. f_equal. exact IH. Qed.
(** strings that agree on the post-selected bits and on the others are equal *)
Lemma remaining_inj b b' ps : List.length b = List.length b' -> agree b ps -> agree b' ps -> remaining b ps = remaining b' ps -> b = b'.
Proof.
  intros L A A' R. assert (E : forall i, i < List.length b -> nth i b 0 = nth i b' 0).
  { intros i Li. destruct (existsb (Nat.eqb i) (map fst ps)) eqn:M.
    - apply existsb_exists in M. destruct M as (j & I & Ej). apply Nat.eqb_eq in Ej. subst j. apply in_map_iff in I. destruct I as ([j v] & <- & I). cbn in *.
      specialize (A _ _ I). specialize (A' _ _ I). rewrite (nth_error_nth _ _ 0 A), (nth_error_nth _ _ 0 A'). reflexivity.
    - unfold remaining in R. rewrite <- L in R. assert (I : In i (filter (fun j => negb (existsb (Nat.eqb j) (map fst ps))) (seq 0 (List.length b)))).
      { apply filter_In. split; [apply in_seq; lia|now rewrite M]. }
      revert R I. generalize (filter (fun j => negb (existsb (Nat.eqb j) (map fst ps))) (seq 0 (List.length b))). intro l. induction l as [|y l IH]; cbn; [tauto|].
      intros [= R1 R2] [->|I]; auto. }
  apply nth_ext with (d := 0) (d' := 0); auto.
Qed.
Lemma post_loop_ok V n ps : (forall i v, In (i, v) ps -> i < n) -> forall (counts acc : list (bits * V)),
  (forall b c, In (b, c) counts -> List.length b = n) -> NoDup (map fst counts) ->
  NoDup (map fst acc) -> (forall b, In b (map fst counts) -> agree b ps -> ~ In (remaining b ps) (map fst acc)) ->
  exists r, post_select_loop counts ps acc = Ok (acc ++ r) /\ NoDup (map fst (acc ++ r)) /\ survivors ps counts r.
Proof.
  intros B. induction counts as [|[b c] counts IH]; intros acc L N Na D; cbn [post_select_loop].
  - exists []. rewrite app_nil_r. split; auto. split; auto. constructor.
  - destruct (@agrees_ok b ps) as (a & -> & A). { rewrite (L b c (or_introl eq_refl)). exact B. }
    cbn [bind]. inversion N as [|? ? N1 N2]; subst. cbn [fst] in N1.
    assert (L' : forall b0 c0, In (b0, c0) counts -> List.length b0 = n) by (intros; eapply L; cbn; eauto). destruct a.
    + assert (Ag : agree b ps) by now apply A. rewrite key_remaining. rewrite (d_set_new bits_eqb_ok) by (apply D; cbn; auto).
      destruct (IH (acc ++ [(remaining b ps, c)])) as (r & E & Nr & S'); auto.
      * rewrite map_app. cbn. apply NoDup_Add with (a := remaining b ps) (l := map fst acc ++ []); [apply Add_app|]. rewrite app_nil_r. split; auto. apply D; cbn; auto.
      * intros b' I' A' J. rewrite map_app, in_app_iff in J. cbn in J. destruct J as [J|[J|[]]]; [apply (D b'); cbn; auto|].
        apply N1. replace b with b'; auto. symmetry. apply (@remaining_inj b b' ps); auto. rewrite (L b c) by (cbn; auto). apply in_map_iff in I'. destruct I' as ([b2 c2] & <- & I'). cbn. rewrite (L' _ _ I'). reflexivity.
      * exists ((remaining b ps, c) :: r). rewrite <- app_assoc in E, Nr. cbn [app] in E, Nr. split; auto. split; auto. constructor; auto.
    + destruct (IH acc) as (r & E & Nr & S'); auto; [intros; apply D; cbn; auto|]. exists r. split; auto. split; auto. constructor; auto. intro Ag. apply A in Ag. discriminate.
Qed.
Lemma post_select_ok V n ps (counts : list (bits * V)) : (forall i v, In (i, v) ps -> i < n) -> (forall b c, In (b, c) counts -> List.length b = n) -> NoDup (map fst counts) ->
  exists r, post_select counts ps = Ok r /\ NoDup (map fst r) /\ survivors ps counts r.
Proof. intros B L N. destruct (@post_loop_ok V n ps B counts [] L N) as (r & E & Nr & S'); cbn; auto; [constructor|]. exists r. auto. Qed.

(** ** renaming the post-selected bits *)
Lemma update_get (l : list (nat * nat)) : forall m k, NoDup (map fst l) ->
  d_get Nat.eqb k (d_update Nat.eqb m l) = match d_get Nat.eqb k l with Some v => Some v | None => d_get Nat.eqb k m end.
Proof.
  unfold d_update. induction l as [|[a x] l IH]; intros m k N; cbn [fold_left]; auto. inversion N as [|? ? N1 N2]; subst. rewrite IH by auto. cbn [fst snd].
  rewrite (d_get_set nat_eqb_ok). unfold d_get at 3. cbn [find fst]. destruct (Nat.eqb_spec a k) as [->|Na]; cbn [snd].
  - destruct (d_get Nat.eqb k l) eqn:G; auto. exfalso. apply N1. apply (d_get_in nat_eqb_ok) in G. apply in_map_iff. eexists; split; eauto. reflexivity.
  - unfold d_get. destruct (find _ l); auto.
Qed.
Lemma update_nodup (l : list (nat * nat)) : forall m, NoDup (map fst m) -> NoDup (map fst (d_update Nat.eqb m l)).
Proof. unfold d_update. induction l as [|p l IH]; intros m N; cbn [fold_left]; auto. apply IH. now apply (d_set_keys nat_eqb_ok). Qed.
Lemma dels_get (l : list (nat * nat)) : forall (m : list (nat * nat)) k, d_get Nat.eqb k (fold_left (fun a p => d_del Nat.eqb (fst p) a) l m) = if existsb (Nat.eqb k) (map fst l) then None else d_get Nat.eqb k m.
Proof.
  induction l as [|p l IH]; intros m k; cbn [fold_left map existsb]; auto. rewrite IH, (d_get_del nat_eqb_ok). rewrite (Nat.eqb_sym k). destruct (Nat.eqb (fst p) k); cbn [orb]; auto. now destruct (existsb _ _).
Qed.
Lemma del_nodup k (m : list (nat * nat)) : NoDup (map fst m) -> NoDup (map fst (d_del Nat.eqb k m)).
Proof.
  unfold d_del. induction m as [|p m IH]; cbn; auto. intro N. inversion N as [|? ? N1 N2]; subst. destruct (negb _); cbn; auto. constructor; auto.
  intro I. apply N1. apply in_map_iff in I. destruct I as (q & E & I). apply filter_In in I. apply in_map_iff. exists q. tauto.
Qed.
Lemma dels_nodup (l : list (nat * nat)) : forall m : list (nat * nat), NoDup (map fst m) -> NoDup (map fst (fold_left (fun a p => d_del Nat.eqb (fst p) a) l m)).
Proof. induction l as [|p l IH]; intros m N; cbn [fold_left]; auto. apply IH. now apply del_nodup. Qed.
Lemma mapM_olds (ps l : list (nat * nat)) : (forall p, In p l -> d_mem Nat.eqb (fst p) ps = true) ->
  exists new, mapM (fun p => match d_get Nat.eqb (fst p) ps with Some v => Ok (snd p, v) | None => Err KeyError end) l = Ok new /\
    map fst new = map snd l /\ forall c v, In (c, v) new <-> exists b, In (b, c) l /\ d_get Nat.eqb b ps = Some v.
Proof.
  induction l as [|[b c] l IH]; intro H; [exists []; repeat split; auto; [intros []|intros (b & [] & _)]|].
  destruct IH as (new & E & M & I); [intros; apply H; cbn; auto|]. cbn [mapM fst snd]. pose proof (H (b, c) (or_introl eq_refl)) as Hb. cbn in Hb. rewrite d_mem_get in Hb.
  destruct (d_get Nat.eqb b ps) as [v|] eqn:G; [|discriminate]. cbn [bind]. rewrite E. cbn [bind]. exists ((c, v) :: new). split; auto. split; [cbn; congruence|].
  intros c' v'. cbn. rewrite I. split.
  - intros [[= <- <-]|(b' & J & G')]; eauto.
  - intros (b' & [[= <- <-]|J] & G'); [left; congruence|eauto].
Qed.
Lemma rename_ok ps ren : NoDup (map fst ps) -> NoDup (map fst ren) ->
  (forall b b' c, In b (map fst ps) -> In b' (map fst ps) -> renamed ren b c -> renamed ren b' c -> b = b') ->
  exists r, rename_post_selection ps ren = Ok r /\ NoDup (map fst r) /\ forall c v, In (c, v) r <-> exists b, In (b, v) ps /\ renamed ren b c.
Proof.
  intros Np Nr Inj. unfold rename_post_selection. set (olds := filter (fun p => d_mem Nat.eqb (fst p) ps) ren).
  assert (Io : forall b c, In (b, c) olds <-> In (b, c) ren /\ In b (map fst ps)).
  { intros b c. unfold olds. rewrite filter_In. cbn. rewrite d_mem_get. split; intros [A B]; split; auto.
    - destruct (d_get Nat.eqb b ps) eqn:G; [|discriminate]. apply (d_get_in nat_eqb_ok) in G. apply in_map_iff. eexists; split; eauto; reflexivity.
    - apply in_map_iff in B. destruct B as ([b' v] & <- & B). cbn. now rewrite (d_in_get nat_eqb_ok Np B). }
  destruct (@mapM_olds ps olds) as (new & E & M & I). { intros p J. unfold olds in J. apply filter_In in J. tauto. }
  rewrite E. cbn [bind]. eexists. split; [reflexivity|].
  assert (No : NoDup (map snd olds)).
  { assert (Nf : NoDup (map fst olds)). { unfold olds. clear -Nr. induction ren as [|p ren IH]; cbn; [constructor|]. inversion Nr as [|? ? N1 N2]; subst. destruct (d_mem _ _ _); cbn; auto. constructor; auto.
      intro H. apply N1. apply in_map_iff in H. destruct H as (q & Eq & H). apply filter_In in H. apply in_map_iff. exists q. tauto. }
    assert (Q : forall x y, In x olds -> In y olds -> snd x = snd y -> fst x = fst y).
    { intros [b c] [b' c'] Ix Iy Es. cbn in *. subst c'. apply Io in Ix. apply Io in Iy. destruct Ix, Iy. apply (Inj b b' c); auto; now left. }
    clear -Nf Q. induction olds as [|x l IH]; cbn in *; [constructor|]. inversion Nf as [|? ? N1 N2]; subst. constructor; auto.
    intro H. apply N1. apply in_map_iff in H. destruct H as (y & Ey & H). rewrite (Q x y); auto. now apply in_map. }
  assert (Nn : NoDup (map fst new)) by congruence.
  fold (d_update Nat.eqb [] new). set (psr := d_update Nat.eqb [] new).
  assert (Npsr : NoDup (map fst psr)) by (apply update_nodup; constructor).
  assert (Gp : forall k, d_get Nat.eqb k psr = d_get Nat.eqb k new). { intro k. unfold psr. rewrite update_get by auto. now destruct (d_get Nat.eqb k new). }
  set (ps' := fold_left (fun a p => d_del Nat.eqb (fst p) a) olds ps).
  assert (Nps' : NoDup (map fst ps')) by now apply dels_nodup.
  assert (NN : NoDup (map fst (d_update Nat.eqb ps' psr))) by now apply update_nodup. split; auto.
  intros c v. split.
  - intro J. apply (d_in_get nat_eqb_ok NN) in J. rewrite update_get, Gp in J by auto. destruct (d_get Nat.eqb c new) as [w|] eqn:G.
    + injection J as ->. apply (d_get_in nat_eqb_ok) in G. apply I in G. destruct G as (b & B1 & B2). exists b. split; [now apply (d_get_in nat_eqb_ok)|]. left. now apply Io in B1.
    + unfold ps' in J. rewrite dels_get in J. destruct (existsb (Nat.eqb c) (map fst olds)) eqn:Ex; [discriminate|]. exists c. apply (d_get_in nat_eqb_ok) in J. split; auto. right. split; auto.
      intro H. assert (In c (map fst olds)). { apply in_map_iff in H. destruct H as ([c' d] & <- & H). cbn in *. apply in_map_iff. exists (c', d). split; auto. apply Io. split; auto. apply in_map_iff. exists (c', v). auto. }
      assert (existsb (Nat.eqb c) (map fst olds) = true); [|congruence]. apply existsb_exists. exists c. split; auto. apply Nat.eqb_refl.
  - intros (b & B & R). assert (Bk : In b (map fst ps)) by (apply in_map_iff; exists (b, v); auto).
    assert (Gb : d_get Nat.eqb b ps = Some v) by now apply (d_in_get nat_eqb_ok).
    apply (d_get_in nat_eqb_ok). rewrite update_get, Gp by auto. destruct R as [R|[-> R]].
    + assert (J : In (c, v) new). { apply I. exists b. split; auto. apply Io. auto. } now rewrite (d_in_get nat_eqb_ok Nn J).
    + destruct (d_get Nat.eqb b new) as [w|] eqn:G.
      * exfalso. apply (d_get_in nat_eqb_ok) in G. apply I in G. destruct G as (b' & J & G). apply Io in J. destruct J as [J K]. assert (b' = b) by (apply (Inj b' b b); auto; [now left|right; auto]). subst b'. apply R. apply in_map_iff. exists (b, b). auto.
      * unfold ps'. rewrite dels_get. destruct (existsb (Nat.eqb b) (map fst olds)) eqn:Ex; auto. exfalso. apply existsb_exists in Ex. destruct Ex as (x & J & Ex). apply Nat.eqb_eq in Ex. subst x.
        apply in_map_iff in J. destruct J as ([b' c'] & <- & J). apply Io in J. cbn in *. apply R. apply in_map_iff. exists (b', c'). tauto.
Qed.
Lemma survivors_sum ps (counts r : list (list nat * Z)) : survivors ps counts r ->
  forall f, (forall b, f b = true <-> agree b ps) -> fold_right Z.add 0%Z (map snd r) = fold_right Z.add 0%Z (map snd (filter (fun p => f (fst p)) counts)).
Proof.
  intros S' f F. induction S' as [|b c l r A S' IH|b c l r A S' IH]; cbn; auto.
  - destruct (f b) eqn:E; [cbn; congruence|]. apply F in A. congruence.
  - destruct (f b) eqn:E; [apply F in E; tauto|auto].
Qed.
Lemma get_counts_ok V mul norm (cs : list (list (bits * V) * list (nat * nat) * V)) :
  (forall c ps s, In (c, ps, s) cs -> exists n, (forall i v, In (i, v) ps -> i < n) /\ (forall b x, In (b, x) (norm c) -> List.length b = n) /\ NoDup (map fst (norm c))) ->
  exists rs, get_counts mul true true true norm cs = Ok rs /\
    Forall2 (fun x r => exists q, survivors (snd (fst x)) (norm (fst (fst x))) q /\ NoDup (map fst q) /\ r = map (fun p => (fst p, mul (snd p) (snd x))) q) cs rs.
Proof.
  unfold get_counts. induction cs as [|[[c ps] s] cs IH]; intro H; cbn [mapM]; [exists []; split; auto|].
  destruct (H c ps s (or_introl eq_refl)) as (n & B & L & N). destruct (@post_select_ok V n ps (norm c) B L N) as (q & E & Nq & S').
  rewrite E. cbn [bind]. destruct IH as (rs & -> & F); [intros; eapply H; cbn; eauto|]. cbn [bind]. eexists. split; [reflexivity|]. constructor; auto. exists q. cbn. auto.
Qed.
