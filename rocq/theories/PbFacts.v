From Verif Require Import PyBase PyFacts ReaderModel RewFacts PbModel PbSpec.
Close Scope string_scope. Set Implicit Arguments. Unset Strict Implicit.

(** ** batches *)
Section Empty.
  Variables (A B : Type) (blank : A -> bool).
  Definition holes (i : nat) (l : list A) : list nat := map fst (filter (fun x => blank (snd x)) (combine (seq i (List.length l)) l)).
  Lemma holes_cons i a l : holes i (a :: l) = (if blank a then [i] else []) ++ holes (S i) l.
  Proof. unfold holes. cbn [List.length seq combine filter snd]. now destruct (blank a). Qed.
  Lemma empties_true l : forall i, empties blank true i l = Ok (holes i l).
  Proof. induction l as [|a l IH]; intros i; [reflexivity|]. rewrite holes_cons. cbn [empties]. rewrite IH. now destruct (blank a). Qed.
  Lemma empties_false l : forall i, empties blank false i l = if existsb blank l then Err ValueError else Ok [].
  Proof. induction l as [|a l IH]; intros i; [reflexivity|]. cbn [empties existsb]. rewrite IH. now destruct (blank a). Qed.
  Lemma no_holes l : existsb blank l = false -> forall i, holes i l = [].
  Proof. induction l as [|a l IH]; intros H i; [reflexivity|]. rewrite holes_cons. cbn in H. apply orb_false_iff in H. destruct H as [-> H]. now apply IH. Qed.
  Definition full (l : list A) : list A := filter (fun a => negb (blank a)) l.
  Lemma full_all l : existsb blank l = false -> full l = l.
  Proof. induction l as [|a l IH]; intros H; [reflexivity|]. cbn in *. apply orb_false_iff in H. destruct H as [-> H]. cbn. f_equal. now apply IH. Qed.
  Lemma drop_holes l : forall p, drop_all (p ++ l) (holes (List.length p) l) = p ++ full l.
  Proof.
    induction l as [|a l IH]; intros p; [reflexivity|]. rewrite holes_cons. unfold drop_all. rewrite rev_app_distr, fold_left_app. fold (drop_all (p ++ a :: l) (holes (S (List.length p)) l)).
    assert (E := IH (p ++ [a])). rewrite app_length, <- !app_assoc in E. cbn in E. replace (List.length p + 1) with (S (List.length p)) in E by lia. rewrite E. cbn [full filter]. destruct (blank a); cbn [negb rev app fold_left]; [|reflexivity].
    unfold del_at. rewrite firstn_app, firstn_all, Nat.sub_diag. cbn [firstn]. rewrite app_nil_r. f_equal. change (S (List.length p)) with (1 + List.length p)%nat. rewrite skipn_app, skipn_all2 by lia. cbn [app]. replace (1 + List.length p - List.length p) with 1 by lia. reflexivity.
  Qed.
  Lemma put_holes (g : A -> option B) (f : A -> option B) l : (forall a, In a l -> blank a = true -> g a = None) -> (forall a, In a l -> blank a = false -> g a = f a) ->
    forall p : list (option B), put_back (p ++ map f (full l)) (holes (List.length p) l) = p ++ map g l.
  Proof.
    intros Hb Hf. induction l as [|a l IH]; intros p; [reflexivity|]. rewrite holes_cons. cbn [full filter map]. unfold put_back. rewrite fold_left_app. destruct (blank a) eqn:E; cbn [negb fold_left map].
    - rewrite (Hb a) by (auto; now left). unfold insert_at. rewrite firstn_app, firstn_all, Nat.sub_diag. cbn [firstn]. rewrite app_nil_r, skipn_app, skipn_all, Nat.sub_diag. cbn [skipn app].
      assert (X := IH ltac:(intros; apply Hb; auto; now right) ltac:(intros; apply Hf; auto; now right) (p ++ [None])). rewrite app_length, <- !app_assoc in X. cbn in X. replace (List.length p + 1) with (S (List.length p)) in X by lia. exact X.
    - rewrite (Hf a) by (auto; now left). assert (X := IH ltac:(intros; apply Hb; auto; now right) ltac:(intros; apply Hf; auto; now right) (p ++ [f a])). rewrite app_length, <- !app_assoc in X. cbn in X. replace (List.length p + 1) with (S (List.length p)) in X by lia. exact X.
  Qed.
  Lemma put_holes_gen (ts : list (option B)) l : List.length ts = List.length (full l) ->
    exists r, (forall p, put_back (p ++ ts) (holes (List.length p) l) = p ++ r) /\ List.length r = List.length l /\ (forall i a, nth_error l i = Some a -> if blank a then nth_error r i = Some None else exists j, nth_error (full l) j = Some a /\ nth_error ts j = nth_error r i).
  Proof.
    revert ts. induction l as [|a l IH]; intros ts E.
    - destruct ts; [|discriminate]. exists []. split; [reflexivity|]. split; [reflexivity|]. intros [|i] a; discriminate.
    - cbn [full filter] in *. destruct (blank a) eqn:Ba; cbn [negb] in *.
      + destruct (IH ts E) as (r & Hp & L & N). exists (None :: r). split; [|split; [cbn; now rewrite L|]].
        * intros p. rewrite holes_cons, Ba. cbn [app]. unfold put_back. cbn [fold_left]. unfold insert_at. rewrite firstn_app, firstn_all, Nat.sub_diag. cbn [firstn]. rewrite app_nil_r, skipn_app, skipn_all, Nat.sub_diag. cbn [skipn app].
          specialize (Hp (p ++ [None])). rewrite app_length, <- !app_assoc in Hp. cbn in Hp. replace (List.length p + 1) with (S (List.length p)) in Hp by lia. exact Hp.
        * intros [|i] b Hb; [injection Hb as <-; now rewrite Ba | exact (N i b Hb)].
      + destruct ts as [|t ts]; [discriminate|]. injection E as E. destruct (IH ts E) as (r & Hp & L & N). exists (t :: r). split; [|split; [cbn; now rewrite L|]].
        * intros p. rewrite holes_cons, Ba. cbn [app]. specialize (Hp (p ++ [t])). rewrite app_length, <- !app_assoc in Hp. cbn in Hp. replace (List.length p + 1) with (S (List.length p)) in Hp by lia. exact Hp.
        * intros [|i] b Hb; [injection Hb as <-; rewrite Ba; exists 0; now split|]. specialize (N i b Hb). destruct (blank b); [exact N|]. destruct N as (j & N1 & N2). exists (S j). now split.
  Qed.
End Empty.
Lemma mapM_map A B (f : A -> res B) (g : A -> B) l : (forall x, In x l -> f x = Ok (g x)) -> mapM f l = Ok (map g l).
Proof. induction l as [|x l IH]; intros H; [reflexivity|]. cbn [mapM map]. rewrite (H x) by now left. cbn [bind]. rewrite IH by (intros; apply H; now right). reflexivity. Qed.
Lemma mapM_inv A B (f : A -> res B) l out : mapM f l = Ok out -> Forall2 (fun x y => f x = Ok y) l out.
Proof.
  revert out. induction l as [|x l IH]; intros out H; [injection H as <-; constructor|]. cbn [mapM] in H. destruct (f x) as [y|] eqn:E; [|discriminate]. cbn [bind] in H. destruct (mapM f l) as [ys|]; [|discriminate]. injection H as <-. constructor; auto.
Qed.
Lemma mapM_err A B (f : A -> res B) l e : mapM f l = Err e -> exists x, In x l /\ f x = Err e.
Proof.
  induction l as [|x l IH]; intros H; [discriminate|]. cbn [mapM] in H. destruct (f x) as [y|e'] eqn:E; cbn [bind] in H.
  - destruct (mapM f l) as [ys|e'] eqn:E2; cbn [bind] in H; [discriminate|]. injection H as ->. destruct (IH eq_refl) as (z & Hz & Ez). exists z. split; [now right | exact Ez].
  - injection H as ->. exists x. split; [now left | exact E].
Qed.
Lemma mapM_bad A B (f : A -> res B) l x e : In x l -> f x = Err e -> exists e', mapM f l = Err e'.
Proof. intros H E. destruct (mapM f l) as [ys|e'] eqn:M; [|now exists e']. apply mapM_inv in M. exfalso. induction M as [|y z l out H1 M IH]; [destruct H|]. destruct H as [-> | H]; [congruence | auto]. Qed.

Lemma reads_ok tokenised xs ss : reads tokenised xs ss -> (if tokenised then mapM as_toks xs else rmap (map py_split) (mapM as_str xs)) = Ok ss.
Proof.
  destruct tokenised; cbn [reads].
  - intros ->. induction ss as [|s ss IH]; [reflexivity|]. cbn [map mapM as_toks bind]. rewrite IH. reflexivity.
  - intros (strs & -> & ->). replace (mapM as_str (map Str strs)) with (@Ok (list string) strs); [reflexivity|]. induction strs as [|s ss IH]; [reflexivity|]. cbn [map mapM as_str bind]. now rewrite <- IH.
Qed.
Lemma drop_none A (l : list A) : drop_all l [] = l. Proof. reflexivity. Qed.
Definition is_blank (s : sentence) : bool := no_tokens s.
Lemma validate_ok tokenised suppress xs ss : reads tokenised xs ss ->
  validate tokenised suppress xs = if suppress then Ok (full no_tokens ss, holes no_tokens 0 ss) else if existsb no_tokens ss then Err ValueError else Ok (ss, []).
Proof.
  intros R. unfold validate. rewrite (reads_ok R). cbn [bind]. destruct suppress.
  - rewrite empties_true. cbn [bind]. assert (X := drop_holes no_tokens ss []). cbn [app List.length] in X. now rewrite X.
  - rewrite empties_false. destruct (existsb no_tokens ss); reflexivity.
Qed.
Lemma attempt_true A B e (f : A -> res B) l : mapM (attempt true e f) l = Ok (map (outcome f) l).
Proof. apply mapM_map. intros x _. unfold attempt, outcome. now destruct (f x). Qed.
Lemma attempt_false A B e (f : A -> res B) l : mapM (attempt false e f) l = if forallb (fun x => is_ok (f x)) l then Ok (map (outcome f) l) else Err e.
Proof.
  induction l as [|x l IH]; [reflexivity|]. cbn [mapM forallb map]. unfold attempt at 1, outcome at 1. destruct (f x); [|reflexivity]. cbn [bind is_ok andb]. rewrite IH. destruct (forallb _ l); reflexivity.
Qed.
(** batches of the tagger *)
Section Tag.
  Variables (G : Type) (tag : list sentence -> res (list G)).
  Hypothesis Tag : forall b, exists gs, tag b = Ok gs /\ List.length gs = List.length b.
  Definition scored_by (all : list sentence) (x : sentence * G) : Prop := exists b gs j, incl b all /\ tag b = Ok gs /\ nth_error b j = Some (fst x) /\ nth_error gs j = Some (snd x).
  Lemma tag_from_ok bs inputs : (0 < bs)%nat -> forall fuel i out, (List.length inputs < i + fuel)%nat ->
    exists r, tag_from tag fuel i bs inputs out = Ok (out ++ r) /\ map fst r = skipn i inputs /\ Forall (scored_by inputs) r.
  Proof.
    intros Hb. induction fuel as [|f IH]; intros i out L.
    - exists []. rewrite app_nil_r, skipn_all2 by lia. now repeat split.
    - cbn [tag_from]. destruct (Nat.ltb_spec i (List.length inputs)) as [Li|Li].
      2: { exists []. rewrite app_nil_r, skipn_all2 by lia. now repeat split. }
      destruct (Tag (firstn bs (skipn i inputs))) as (gs & Eg & Lg). unfold tag_batch. rewrite Eg. cbn [rmap bind]. destruct (IH (i + bs) (out ++ combine (firstn bs (skipn i inputs)) gs)) as (r & Er & Mr & Fr); [lia|].
      exists (combine (firstn bs (skipn i inputs)) gs ++ r). split; [|split].
      + rewrite Er, <- app_assoc. reflexivity.
      + rewrite map_app, Mr. assert (C : forall (a : list sentence) (b : list G), List.length b = List.length a -> map fst (combine a b) = a). { induction a as [|x a IHa]; intros [|y b] H; try discriminate; [reflexivity|]. cbn. f_equal. apply IHa. now injection H. }
        rewrite C by exact Lg. rewrite <- (firstn_skipn bs (skipn i inputs)) at 2. f_equal. now rewrite skipn_skipn.
      + apply Forall_app. split; [|exact Fr]. apply Forall_forall. intros [s g] H. apply In_nth_error in H. destruct H as [j Hj]. exists (firstn bs (skipn i inputs)), gs, j. split.
        { intros x Hx. rewrite <- (firstn_skipn i inputs), in_app_iff. right. rewrite <- (firstn_skipn bs (skipn i inputs)), in_app_iff. now left. }
        split; [exact Eg|]. revert j Hj. clear. generalize (firstn bs (skipn i inputs)). intros a. revert gs. induction a as [|x a IH]; intros [|y gs] [|j] H; try discriminate; cbn in *; [injection H as <- <-; auto | auto].
  Qed.
  Lemma tag_all_ok bs inputs : (0 < bs)%nat -> exists r, tag_all tag bs inputs = Ok r /\ map fst r = inputs /\ Forall (scored_by inputs) r.
  Proof. intros Hb. destruct (@tag_from_ok bs inputs Hb (S (List.length inputs)) 0 [] ltac:(lia)) as (r & E & M & F). exists r. auto. Qed.
End Tag.
(** ** spans *)
Definition tri (n : nat) : nat := n * (n + 1) / 2.
Lemma tri_S n : tri (S n) = tri n + S n.
Proof. unfold tri. replace (S n * (S n + 1)) with (n * (n + 1) + S n * 2) by lia. rewrite Nat.div_add by lia. reflexivity. Qed.
Lemma tri_mono a b : (a <= b)%nat -> (tri a <= tri b)%nat.
Proof. induction 1; [lia|]. rewrite tri_S. lia. Qed.
Lemma tri_inj a b : (tri a <= tri b)%nat -> (a <= b)%nat.
Proof. intros H. destruct (Nat.le_gt_cases a b) as [L|L]; [exact L|]. assert (X := @tri_mono (S b) a L). rewrite tri_S in X. lia. Qed.
Definition chart (n : nat) : list span := flat_map row (seq 0 n).
Lemma row_len e : List.length (row e) = S e. Proof. unfold row. rewrite map_length, rev_length, seq_length. lia. Qed.
Lemma chart_S n : chart (S n) = chart n ++ row n. Proof. unfold chart. rewrite seq_S, flat_map_app. cbn. now rewrite app_nil_r. Qed.
Lemma chart_len n : List.length (chart n) = tri n.
Proof. induction n as [|n IH]; [reflexivity|]. rewrite chart_S, app_length, IH, row_len, tri_S. reflexivity. Qed.
Lemma row_nth e x : (x <= e)%nat -> nth_error (row e) (e - x) = Some (x, e).
Proof.
  intros L. unfold row. rewrite nth_error_map. assert (E : nth_error (rev (seq 0 (e + 1))) (e - x) = Some x); [|now rewrite E].
  rewrite (nth_error_nth' _ 0) by (rewrite rev_length, seq_length; lia). rewrite rev_nth by (rewrite seq_length; lia). rewrite seq_length, seq_nth by lia. f_equal. lia.
Qed.
Lemma chart_nth n : forall x y, (x <= y)%nat -> (y < n)%nat -> nth_error (chart n) (tri y + (y - x)) = Some (x, y).
Proof.
  induction n as [|n IH]; intros x y L1 L2; [lia|]. rewrite chart_S. destruct (Nat.eq_dec y n) as [-> | Ne].
  - rewrite nth_error_app2 by (rewrite chart_len; lia). rewrite chart_len. replace (tri n + (n - x) - tri n) with (n - x) by lia. now apply row_nth.
  - rewrite nth_error_app1; [apply IH; lia|]. rewrite chart_len. assert (X := @tri_mono (S y) n ltac:(lia)). rewrite tri_S in X. lia.
Qed.
Lemma chart_prefix k n : (k <= n)%nat -> firstn (tri k) (chart n) = chart k.
Proof.
  intros L. replace n with (k + (n - k)) by lia. unfold chart. rewrite seq_app, flat_map_app. fold (chart k). rewrite <- chart_len, firstn_app, firstn_all, Nat.sub_diag. cbn [firstn]. apply app_nil_r.
Qed.
Lemma chart_last n : match rev (chart n) with [] => 0 | (_, e) :: _ => e + 1 end = n.
Proof.
  destruct n as [|n]; [reflexivity|]. rewrite chart_S, rev_app_distr. unfold row. rewrite <- map_rev, rev_involutive, Nat.add_1_r. cbn [seq map app]. lia.
Qed.
Lemma get_ok k n : exists m, (k <= m)%nat /\ get_chart_spans n (chart k) = (chart n, chart m) /\ (n <= m)%nat.
Proof.
  unfold get_chart_spans. change (chart_size n) with (tri n). rewrite chart_len, chart_last. destruct (Nat.leb_spec (tri n) (tri k)) as [L|L].
  - apply tri_inj in L. exists k. rewrite chart_prefix by exact L. split; [lia|]. split; [reflexivity | exact L].
  - assert (k <= n)%nat by (destruct (Nat.le_gt_cases k n) as [?|H]; [auto|]; assert (X := @tri_mono n k ltac:(lia)); lia).
    exists n. split; [auto|]. split; [|lia]. unfold chart. assert (E : seq 0 n = seq 0 k ++ seq k (n - k)) by (rewrite <- seq_app; f_equal; lia). rewrite E, flat_map_app. reflexivity.
Qed.
Lemma sqrt_enough i : (i < tri (Nat.sqrt (2 * i) + 1))%nat.
Proof.
  destruct (Nat.sqrt_spec (2 * i) ltac:(lia)) as [_ H]. set (s := Nat.sqrt (2 * i)) in *. unfold tri. apply Nat.div_le_lower_bound; [lia|]. nia.
Qed.
Lemma idx_ok k i : exists m, (k <= m)%nat /\ (i < tri m)%nat /\ idx2span i (chart k) = (match nth_error (chart m) i with Some x => Ok x | None => Err IndexError end, chart m).
Proof.
  unfold idx2span. rewrite chart_len. destruct (Nat.leb_spec (tri k) i) as [L|L]; [|now exists k].
  destruct (get_ok k (Nat.sqrt (2 * i) + 1)) as (m & L1 & E & L2). rewrite E. cbn [snd]. exists m. split; [exact L1|]. split; [|reflexivity]. assert (X := sqrt_enough i). assert (Y := tri_mono L2). lia.
Qed.
Lemma tri_find i : exists x y, (x <= y)%nat /\ i = tri y + (y - x).
Proof.
  induction i as [|i (x & y & L & E)]; [now exists 0, 0|]. destruct x as [|x].
  - exists (S y), (S y). split; [lia|]. rewrite tri_S. lia.
  - exists x, y. split; lia.
Qed.
Lemma idx_ok' k x y : (x <= y)%nat -> exists m, (k <= m)%nat /\ idx2span (tri y + (y - x)) (chart k) = (Ok (x, y), chart m).
Proof.
  intros L. destruct (idx_ok k (tri y + (y - x))) as (m & L1 & L2 & E). exists m. split; [exact L1|]. rewrite E, chart_nth; [reflexivity | exact L|].
  destruct (Nat.le_gt_cases m y) as [H|H]; [|exact H]. apply tri_mono in H. lia.
Qed.
Lemma after_chart h : exists m, after h = chart m.
Proof.
  unfold after. change (@nil span) with (chart 0). generalize 0. induction h as [|c h IH]; intros k; [now exists k|]. cbn [fold_left]. destruct c as [n|i].
  - destruct (get_ok k n) as (m & _ & E & _). rewrite E. apply IH.
  - destruct (idx_ok k i) as (m & _ & _ & E). rewrite E. apply IH.
Qed.
Lemma span2idx_tri x y : (x <= y)%nat -> span2idx x y = Z.of_nat (tri y + (y - x)).
Proof. intros L. unfold span2idx. change (chart_size (y + 1)) with (tri (y + 1)). rewrite Nat.add_1_r, tri_S. lia. Qed.
