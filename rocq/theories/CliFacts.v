(** Proofs about the command line interface. *)
From Coq Require Import ZArith Ascii.
From Verif Require Import PyBase PyFacts CliModel CliSpec.
Open Scope string_scope. Set Implicit Arguments. Unset Strict Implicit.

(** ** Validation *)
Lemma among_spec o l : among o l = true <-> exists s, o = Some s /\ In s l.
Proof.
  destruct o as [s|]; cbn [among]; [|split; [discriminate|intros (s & E & _); discriminate E]]. rewrite existsb_exists. split.
  - intros (t & H & E%String.eqb_eq). subst t. exists s. auto.
  - intros (t & E & H). injection E as <-. exists s. split; [exact H|apply String.eqb_refl].
Qed.
Lemma among1 o s : among o [s] = true <-> o = Some s.
Proof. rewrite among_spec. split; [intros (t & E & [->|[]]); exact E|intros E; exists s; cbn; auto]. Qed.
Lemma among2 o s t : among o [s; t] = true <-> o = Some s \/ o = Some t.
Proof. rewrite among_spec. split; [intros (u & E & [->|[->|[]]]); auto|intros [E|E]; [exists s|exists t]; cbn; auto]. Qed.
Lemma among3 o s t u : among o [s; t; u] = true <-> o = Some s \/ o = Some t \/ o = Some u.
Proof. rewrite among_spec. split; [intros (v & E & [->|[->|[->|[]]]]); auto|intros [E|[E|E]]; [exists s|exists t|exists u]; cbn; auto]. Qed.
Lemma is_some_spec {X} (o : option X) : is_some o = true <-> o <> None.
Proof. destruct o; cbn; split; congruence. Qed.
Lemma none_spec {X} (o : option X) : is_some o = false <-> o = None.
Proof. destruct o; cbn; split; congruence. Qed.
Lemma validate_raises a : validate_args a = Ok tt \/ validate_args a = Err ValueError.
Proof. unfold validate_args. repeat match goal with |- context [if ?b then _ else _] => destruct b; [auto|] end. auto. Qed.
Lemma not_true_iff b : b <> true <-> b = false. Proof. destruct b; split; congruence. Qed.
Ltac known_bools := rewrite ?andb_true_iff, ?orb_true_iff, ?negb_true_iff, ?is_some_spec, ?none_spec, ?among1, ?among2, ?among3 in *.
Lemma acceptable_valid a : acceptable a -> validate_args a = Ok tt.
Proof.
  intros [H1 H2 H3 H4 H5 H6 H7]. unfold validate_args, textual in *.
  repeat match goal with |- (if ?b then _ else _) = _ => destruct b eqn:?; [exfalso|] end; [..|reflexivity].
  all: repeat match goal with H : _ = true |- _ => progress known_bools | H : _ /\ _ |- _ => destruct H end.
  - destruct H1 as [H1|H1]; [rewrite H1 in *; discriminate|congruence].
  - destruct (among (output_format a) ["text-ascii"; "text-unicode"]) eqn:E; [discriminate|]. rewrite <- not_true_iff, among2 in E. tauto.
  - clear - H3 H H0. tauto.
  - destruct H4 as [H4|H4]; [rewrite H4 in *; discriminate|]. rewrite H4 in *. discriminate.
  - destruct H5 as [H5|H5]; [congruence|]. rewrite H5 in *. discriminate.
  - match goal with H : mode a = Some "ccg" |- _ => destruct (H6 H) as (A1 & A2 & A3 & A4 & A5) end; clear H1 H2 H3 H4 H5 H6 H7; tauto.
  - match goal with H : mode a = Some "ccg" |- _ => destruct (H6 H) as (A1 & A2 & A3 & A4 & A5) end; clear H1 H2 H3 H4 H5 H6 H7; tauto.
  - specialize (H6 ltac:(assumption)). destruct H6 as (_ & _ & _ & _ & [H6|H6]); [congruence|]. rewrite H6 in *. discriminate.
  - clear H1 H2 H3 H4 H5 H6; tauto.
Qed.
Lemma valid_acceptable a : validate_args a = Ok tt -> acceptable a.
Proof.
  unfold validate_args. do 9 (match goal with |- (if ?b then _ else _) = _ -> _ => destruct b eqn:?B; [discriminate|] end). intros _. constructor.
  - destruct (String.eqb_spec (input_sentence a) "") as [E|E]; [left; exact E|]. destruct (input_file a); [discriminate|right; reflexivity].
  - destruct (among (output_format a) ["text-ascii"; "text-unicode"]) eqn:T; [left; apply among2; exact T|]. right. destruct (output_file a); [left; discriminate|]. destruct (output_dir a); [right; discriminate|discriminate].
  - destruct (parser a); [|left; reflexivity]. destruct (reader a); [discriminate|right; reflexivity].
  - destruct (output_options a); [left; reflexivity|]. right. destruct (among (output_format a) ["image"]) eqn:T; [apply among1; exact T|discriminate].
  - destruct (output_dir a); [|left; reflexivity]. right. destruct (among (output_format a) ["image"]) eqn:T; [apply among1; exact T|discriminate].
  - intros M. rewrite M in B4, B5, B6. change (among (Some "ccg") ["ccg"]) with true in B4, B5, B6. cbn [andb] in B4, B5, B6.
    destruct (ansatz a); [discriminate|]. destruct (reader a); [discriminate|]. destruct (rewrite_rules a); [discriminate|]. repeat (split; [reflexivity|]). split.
    + intros E. rewrite E in B5. discriminate.
    + destruct (parser a) as [p|]; [|left; reflexivity]. right. cbn [is_some andb] in B6. apply negb_false_iff, among1 in B6. exact B6.
  - intros T M. assert (T' : among (output_format a) ["text-ascii"; "text-unicode"; "json"] = true) by (apply among3; unfold textual in T; clear - T; tauto).
    assert (M' : among (mode a) ["string-diagram"; "pregroups"] = true) by (apply among2; exact M). rewrite T', M' in B7. cbn [andb] in B7.
    destruct (ansatz a); [discriminate|]. destruct (rewrite_rules a); [discriminate|]. cbn [is_some orb] in B7. rewrite <- not_true_iff, among3 in B7. split; [reflexivity|]. split; [reflexivity|].
    split; [|split]; intros E; apply B7; auto.
Qed.

(** ** The saved objects *)
Lemma mapM_2 {A B} (f : A -> res B) l r : mapM f l = Ok r -> Forall2 (fun x y => f x = Ok y) l r.
Proof.
  revert r. induction l as [|x l IH]; intros r; cbn [mapM].
  - intros E. injection E as <-. constructor.
  - destruct (f x) as [y|] eqn:Ey; [|discriminate]. cbn [bind]. destruct (mapM f l) as [ys|]; [|discriminate]. cbn [bind]. intros E. injection E as <-. constructor; auto.
Qed.
Lemma forall2_impl {A B} (R S : A -> B -> Prop) l r : (forall x y, R x y -> S x y) -> Forall2 R l r -> Forall2 S l r.
Proof. intros H. induction 1; constructor; auto. Qed.
Lemma forall2_id {A} (l : list A) : Forall2 (fun x y => y = x) l l.
Proof. induction l; constructor; auto. Qed.
Lemma forall2_comp {A B C} (R : A -> B -> Prop) (S : B -> C -> Prop) l m r : Forall2 R l m -> Forall2 S m r -> Forall2 (fun x z => exists y, R x y /\ S y z) l r.
Proof. intros H. revert r. induction H; intros r K; inversion_clear K; constructor; eauto. Qed.
(** ** Numbers *)
Lemma str_fuel_more f n : n < f -> str_fuel f n = str_nat n.
Proof.
  unfold str_nat. revert n. assert (H : forall f g n, n < f -> n < g -> str_fuel f n = str_fuel g n).
  { clear f. induction f as [|f IH]; intros [|g] n Hf Hg; [lia|lia|lia|]. cbn [str_fuel]. destruct (n <? 10)%nat eqn:E; [reflexivity|]. apply Nat.ltb_ge in E.
    assert (n / 10 < n) by (apply Nat.div_lt; lia). rewrite (IH g (n / 10)) by lia. reflexivity. }
  intros n Hn. apply H; lia.
Qed.
Lemma str_nat_eq n : str_nat n = (if (n <? 10)%nat then "" else str_nat (n / 10)) ++ String (digit (n mod 10)) "".
Proof.
  unfold str_nat at 1. cbn [str_fuel]. destruct (n <? 10)%nat eqn:E; [reflexivity|]. apply Nat.ltb_ge in E. rewrite str_fuel_more; [reflexivity|]. apply Nat.div_lt; lia.
Qed.
Fixpoint padded (w n : nat) : string := match w with O => "" | S w' => padded w' (n / 10) ++ String (digit (n mod 10)) "" end.
Lemma length_app s t : String.length (s ++ t) = String.length s + String.length t.
Proof. induction s as [|c s IH]; [reflexivity|]. cbn. rewrite IH. reflexivity. Qed.
Lemma app_assoc' s t u : (s ++ t) ++ u = s ++ (t ++ u).
Proof. induction s as [|c s IH]; [reflexivity|]. cbn. rewrite IH. reflexivity. Qed.
Lemma zeros_snoc k : zeros k ++ "0" = "0" ++ zeros k.
Proof. induction k as [|k IH]; [reflexivity|]. cbn in *. rewrite IH. reflexivity. Qed.
Lemma padded_zero w : padded w 0 = zeros w.
Proof. induction w as [|w IH]; [reflexivity|]. cbn [padded]. change (0 / 10) with 0. rewrite IH. change (String (digit (0 mod 10)) "") with "0". apply zeros_snoc. Qed.
Lemma str_length_pos n : 0 < String.length (str_nat n).
Proof. rewrite str_nat_eq, length_app. cbn. lia. Qed.
Lemma zfill_padded w n : String.length (str_nat n) <= w -> zfill w (str_nat n) = padded w n.
Proof.
  revert n. induction w as [|w IH]; intros n Hw; [pose proof (str_length_pos n); lia|]. unfold zfill. rewrite str_nat_eq in Hw |- *. cbn [padded]. rewrite length_app in Hw |- *. cbn [String.length] in Hw |- *.
  destruct (n <? 10)%nat eqn:E.
  - apply Nat.ltb_lt in E. rewrite Nat.div_small by exact E. rewrite padded_zero. cbn [String.length Nat.add append]. f_equal. f_equal. lia.
  - rewrite <- IH by lia. unfold zfill. rewrite app_assoc'. f_equal. f_equal. lia.
Qed.
Lemma str_length_bound n : n < 10 ^ String.length (str_nat n).
Proof.
  induction n as [n IH] using lt_wf_ind. rewrite str_nat_eq, length_app. cbn [String.length]. destruct (n <? 10)%nat eqn:E; cbn [String.length]; [apply Nat.ltb_lt in E; cbn; lia|].
  apply Nat.ltb_ge in E. assert (L : n / 10 < n) by (apply Nat.div_lt; lia). specialize (IH _ L). rewrite Nat.add_1_r, Nat.pow_succ_r'.
  pose proof (Nat.div_mod_eq n 10). pose proof (Nat.mod_upper_bound n 10 ltac:(lia)). nia.
Qed.
Lemma str_length_least n w : 0 < w -> n < 10 ^ w -> String.length (str_nat n) <= w.
Proof.
  revert n. induction w as [|w IH]; intros n Hw Hn; [lia|]. rewrite str_nat_eq, length_app. cbn [String.length]. destruct (n <? 10)%nat eqn:E; cbn [String.length]; [lia|].
  apply Nat.ltb_ge in E. destruct w as [|w]; [cbn in Hn; lia|]. rewrite Nat.pow_succ_r' in Hn. assert (n / 10 < 10 ^ S w) by (apply Nat.div_lt_upper_bound; lia).
  specialize (IH (n / 10) ltac:(lia) ltac:(lia)). lia.
Qed.
Lemma str_length_mono n m : n <= m -> String.length (str_nat n) <= String.length (str_nat m).
Proof. intros H. apply str_length_least; [apply str_length_pos|]. pose proof (str_length_bound m). lia. Qed.
Lemma padded_length w n : String.length (padded w n) = w.
Proof. revert n. induction w as [|w IH]; intros n; [reflexivity|]. cbn [padded]. rewrite length_app, IH. cbn. lia. Qed.
(** the order of strings *)
Lemma compare_refl s : String.compare s s = Eq.
Proof. induction s as [|c s IH]; [reflexivity|]. cbn. unfold Ascii.compare. rewrite N.compare_refl. exact IH. Qed.
Lemma compare_same_prefix p s t : String.compare (p ++ s) (p ++ t) = String.compare s t.
Proof. induction p as [|c p IH]; [reflexivity|]. cbn. unfold Ascii.compare. rewrite N.compare_refl. exact IH. Qed.
Lemma compare_lt_app a b s t : String.length a = String.length b -> String.compare a b = Lt -> String.compare (a ++ s) (b ++ t) = Lt.
Proof.
  revert b. induction a as [|c a IH]; intros [|d b] L; cbn in L; try discriminate. cbn. destruct (Ascii.compare c d); [apply IH; congruence|reflexivity|discriminate].
Qed.
Lemma digit_compare a b : a < b -> b < 10 -> String.compare (String (digit a) "") (String (digit b) "") = Lt.
Proof. intros H1 H2. do 10 (destruct b as [|b]; [do 10 (destruct a as [|a]; [first [lia | reflexivity]|]); lia|]). lia. Qed.
Lemma padded_lt w n m : n < m -> m < 10 ^ w -> String.compare (padded w n) (padded w m) = Lt.
Proof.
  revert n m. induction w as [|w IH]; intros n m H Hm; [cbn in Hm; lia|]. cbn [padded]. rewrite Nat.pow_succ_r' in Hm.
  pose proof (Nat.div_mod_eq n 10). pose proof (Nat.div_mod_eq m 10). pose proof (Nat.mod_upper_bound n 10 ltac:(lia)). pose proof (Nat.mod_upper_bound m 10 ltac:(lia)).
  destruct (Nat.lt_trichotomy (n / 10) (m / 10)) as [L|[L|L]]; [|rewrite L, compare_same_prefix; apply digit_compare; lia|lia].
  apply compare_lt_app; [rewrite !padded_length; reflexivity|]. apply IH; [exact L|]. apply Nat.div_lt_upper_bound; lia.
Qed.
Lemma image_name_lt dir fmt n i j : i < j -> j < n -> String.ltb (image_name dir fmt n i) (image_name dir fmt n j) = true.
Proof.
  intros H Hj. unfold image_name, String.ltb. rewrite !compare_same_prefix. rewrite !zfill_padded by (apply str_length_mono; lia).
  rewrite compare_lt_app; [reflexivity|rewrite !padded_length; reflexivity|]. apply padded_lt; [lia|]. pose proof (str_length_bound n). lia.
Qed.
Lemma image_name_length dir fmt n i : i < n -> String.length (image_name dir fmt n i) = String.length dir + 9 + String.length (str_nat n) + 1 + String.length fmt.
Proof. intros H. unfold image_name. rewrite zfill_padded by (apply str_length_mono; lia). rewrite !length_app, padded_length. cbn. lia. Qed.
(** ** The file of one image *)
Lemma split_dot_ext b s : snd (split_dot b s) = "" \/ exists e, snd (split_dot b s) = String "." e.
Proof.
  revert b. induction s as [|c s IH]; intros b; [left; reflexivity|]. cbn [split_dot]. destruct (c =? "/")%char; [apply IH|].
  destruct ((c =? ".")%char && b && negb (has_char "." s) && negb (has_char "/" s)) eqn:E; [|apply IH].
  right. exists s. cbn [snd]. repeat (apply andb_true_iff in E as [E _]). apply Ascii.eqb_eq in E. subst c. reflexivity.
Qed.
Lemma split_dot_app b s : fst (split_dot b s) ++ snd (split_dot b s) = s.
Proof.
  revert b. induction s as [|c s IH]; intros b; [reflexivity|]. cbn [split_dot]. destruct (c =? "/")%char; [cbn; rewrite IH; reflexivity|].
  destruct (_ && _); [reflexivity|]. cbn. rewrite IH. reflexivity.
Qed.
Lemma lacks_nil c : lacks c "". Proof. intros i. destruct i; discriminate. Qed.
Lemma lacks_cons c d s : d <> c -> lacks c s -> lacks c (String d s).
Proof. intros N H [|i]; cbn; [congruence|apply H]. Qed.
Lemma lacks_has c s : has_char c s = false <-> lacks c s.
Proof.
  induction s as [|d s IH]; cbn [has_char]; [split; [intros _; apply lacks_nil|reflexivity]|]. rewrite orb_false_iff, IH, Ascii.eqb_neq. split.
  - intros [N H]. apply lacks_cons; congruence.
  - intros H. split; [intros ->; apply (H 0); reflexivity|]. intros i. exact (H (S i)).
Qed.
Lemma dots_cons s : only_dots s -> only_dots (String "." s).
Proof. intros H [|i] c; cbn; [congruence|apply H]. Qed.
Lemma dots_tail c s : only_dots (String c s) -> c = "."%char /\ only_dots s.
Proof. intros H. split; [apply (H 0); reflexivity|]. intros i d E. exact (H (S i) d E). Qed.
Lemma split_dot_spec s : forall b, exists dir name, fst (split_dot b s) = dir ++ name /\ (dir = "" \/ exists d, dir = d ++ "/") /\ lacks "/" name /\
  ((snd (split_dot b s) = "" /\ exists dots word, name = dots ++ word /\ only_dots dots /\ lacks "." word /\ (dir = "" -> b = true -> dots = "")) \/
   (exists e, snd (split_dot b s) = "." ++ e /\ lacks "." e /\ lacks "/" e /\ (~ only_dots name \/ (dir = "" /\ b = true)))).
Proof.
  induction s as [|c s IH]; intros b.
  - exists "", "". split; [reflexivity|]. split; [auto|]. split; [apply lacks_nil|]. left. split; [reflexivity|]. exists "", "". split; [reflexivity|]. split; [intros [|i] c; discriminate|]. split; [apply lacks_nil|auto].
  - cbn [split_dot]. destruct (Ascii.eqb_spec c "/") as [->|Ns].
    + destruct (IH false) as (dir & name & E & D & L & H). exists (String "/" dir), name. cbn [fst snd]. rewrite E. split; [reflexivity|].
      split; [right; destruct D as [->|(d & ->)]; [exists ""|exists (String "/" d)]; reflexivity|]. split; [exact L|].
      destruct H as [(H1 & ds & w & H2 & H3 & H4 & _)|(e & H1 & H2 & H3 & [H4|[_ H4]])]; [left|right|discriminate H4].
      * split; [exact H1|]. exists ds, w. split; [exact H2|]. split; [exact H3|]. split; [exact H4|discriminate].
      * exists e. auto.
    + destruct ((c =? ".")%char && b && negb (has_char "." s) && negb (has_char "/" s)) eqn:T.
      * apply andb_true_iff in T as [T T4]. apply andb_true_iff in T as [T T3]. apply andb_true_iff in T as [T1 T2]. apply Ascii.eqb_eq in T1. subst c. apply negb_true_iff, lacks_has in T3, T4.
        exists "", "". split; [reflexivity|]. split; [auto|]. split; [apply lacks_nil|]. right. exists s. split; [reflexivity|]. auto.
      * pose proof (split_dot_app (b || negb (c =? ".")%char) s) as A. destruct (IH (b || negb (c =? ".")%char)) as (dir & name & E & D & L & H). cbn [fst snd]. rewrite E in A |- *.
        destruct dir as [|c0 dir].
        -- exists "", (String c name). split; [reflexivity|]. split; [auto|]. split; [apply lacks_cons; assumption|].
           destruct H as [(H1 & ds & w & H2 & H3 & H4 & H5)|(e & H1 & H2 & H3 & H4)]; [left|right].
           ++ split; [exact H1|]. destruct (Ascii.eqb_spec c ".") as [->|Nd].
              ** destruct b; cbn [orb negb andb] in *.
                 --- exfalso. rewrite H1 in A. cbn [append] in A. rewrite (H5 eq_refl eq_refl) in H2. cbn [append] in H2. subst name.
                     assert (A' : w = s) by (rewrite <- A; clear; induction w as [|d w IH]; [reflexivity|cbn; f_equal; exact IH]). subst w.
                     apply lacks_has in H4, L. rewrite H4, L in T. discriminate T.
                 --- exists (String "." ds), w. split; [rewrite H2; reflexivity|]. split; [apply dots_cons; exact H3|]. split; [exact H4|discriminate].
              ** exists "", (String c w). rewrite orb_true_r in H5. rewrite H2, (H5 eq_refl eq_refl). split; [reflexivity|]. split; [intros [|i] d; discriminate|]. split; [apply lacks_cons; assumption|auto].
           ++ exists e. split; [exact H1|]. split; [exact H2|]. split; [exact H3|]. destruct (Ascii.eqb_spec c ".") as [->|Nd].
              ** rewrite orb_false_r in H4. destruct H4 as [H4|H4]; [left|right; exact H4]. intros K. apply H4. exact (proj2 (dots_tail K)).
              ** left. intros K. apply Nd. exact (proj1 (dots_tail K)).
        -- exists (String c (String c0 dir)), name. split; [reflexivity|]. split; [right; destruct D as [D|(d & D)]; [discriminate|]; exists (String c d); cbn; rewrite D; reflexivity|]. split; [exact L|].
           destruct H as [(H1 & ds & w & H2 & H3 & H4 & _)|(e & H1 & H2 & H3 & [H4|[H4 _]])]; [left|right|discriminate H4].
           ++ split; [exact H1|]. exists ds, w. split; [exact H2|]. split; [exact H3|]. split; [exact H4|discriminate].
           ++ exists e. auto.
Qed.
Lemma splitext_splits file : splits file (fst (splitext file)) (snd (splitext file)).
Proof.
  split; [symmetry; apply split_dot_app|]. destruct (split_dot_spec file false) as (dir & name & E & D & L & H). exists dir, name. split; [exact E|]. split; [exact D|]. split; [exact L|].
  destruct H as [(H1 & ds & w & H2 & H3 & H4 & _)|(e & H1 & H2 & H3 & [H4|[_ H4]])]; [left|right|discriminate H4].
  - split; [exact H1|]. exists ds, w. auto.
  - exists e. auto.
Qed.
Lemma image_file_ext file fmt : image_file file fmt = fst (splitext file) ++ "." ++ fmt.
Proof.
  unfold image_file. cbv zeta. destruct (split_dot_ext false file) as [E|(e & E)]; unfold splitext; rewrite E; reflexivity.
Qed.

(** ** Options *)
Lemma look_set {V} k k' (v : V) l : look k (set_key k' v l) = if k =? k' then Some v else look k l.
Proof.
  induction l as [|[k2 v2] l IH]; cbn [set_key look]; [reflexivity|]. destruct (String.eqb_spec k' k2) as [->|N]; cbn [look].
  - destruct (k =? k2); reflexivity.
  - rewrite IH. destruct (String.eqb_spec k k2) as [->|N2]; [|reflexivity]. destruct (String.eqb_spec k2 k'); [congruence|reflexivity].
Qed.
Definition sets {V} (acc : list (string * V)) (l : list (string * V)) := fold_left (fun acc kv => set_key (fst kv) (snd kv) acc) l acc.
Lemma look_app {V} k (l m : list (string * V)) : look k (l ++ m)%list = match look k l with Some v => Some v | None => look k m end.
Proof. induction l as [|[k' v] l IH]; [reflexivity|]. cbn. destruct (k =? k'); [reflexivity|exact IH]. Qed.
Lemma look_sets {V} k (l acc : list (string * V)) : look k (sets acc l) = match look k (rev l) with Some v => Some v | None => look k acc end.
Proof.
  unfold sets. revert acc. induction l as [|[k' v] l IH]; intros acc; [reflexivity|]. cbn [fold_left rev fst snd]. rewrite IH, look_set, look_app. cbn [look].
  destruct (look k (rev l)); [reflexivity|]. destruct (k =? k'); reflexivity.
Qed.
Lemma parse_fold io cs values acc o : foldM (fun acc s => do kv <- parse_option io cs s; Ok (set_key (fst kv) (snd kv) acc)) values acc = Ok o ->
  exists given, mapM (parse_option io cs) values = Ok given /\ o = sets acc given.
Proof.
  revert acc. induction values as [|s values IH]; intros acc; cbn [foldM mapM].
  - intros E. injection E as <-. exists []. auto.
  - destruct (parse_option io cs s) as [kv|]; [|discriminate]. cbn [bind]. intros E. apply IH in E as (given & H & ->). rewrite H. exists (kv :: given). auto.
Qed.
Definition add_default (acc : list (string * Z)) (kv : string * option Z) := match look (fst kv) acc, snd kv with None, Some v => set_key (fst kv) v acc | _, _ => acc end.
Lemma look_defaults k (cs : choices) acc : NoDup (map fst cs) ->
  look k (fold_left add_default cs acc) = match look k acc with Some v => Some v | None => match look k cs with Some o => o | None => None end end.
Proof.
  revert acc. induction cs as [|[k' d] cs IH]; intros acc Hn; cbn [fold_left look]; [destruct (look k acc); reflexivity|].
  cbn [map fst] in Hn. inversion_clear Hn as [|? ? Hk Hcs]. rewrite IH by exact Hcs. unfold add_default. cbn [fst snd].
  assert (N : look k' cs = None).
  { clear IH Hcs. induction cs as [|[k2 v2] cs IH]; [reflexivity|]. cbn [look]. destruct (String.eqb_spec k' k2) as [->|]; [exfalso; apply Hk; left; reflexivity|]. apply IH. intros H. apply Hk. right. exact H. }
  destruct (look k' acc) as [v|] eqn:E; [|destruct d as [v|]].
  - destruct (look k acc) eqn:E2; [reflexivity|]. destruct (String.eqb_spec k k') as [->|]; [congruence|reflexivity].
  - rewrite look_set. destruct (String.eqb_spec k k') as [->|]; [rewrite E; reflexivity|reflexivity].
  - destruct (look k acc); [reflexivity|]. destruct (String.eqb_spec k k') as [->|]; [rewrite N; reflexivity|reflexivity].
Qed.
Lemma parse_options_look io cs values o : NoDup (map fst cs) -> parse_options io cs values = Ok o -> exists given, mapM (parse_option io cs) values = Ok given /\
  forall k, look k o = match look k (rev given) with Some v => Some v | None => match look k cs with Some d => d | None => None end end.
Proof.
  intros Hn. unfold parse_options. destruct (foldM _ values []) as [o1|] eqn:E; [|discriminate]. cbn [bind]. intros H. injection H as <-.
  apply parse_fold in E as (given & Hg & ->). exists given. split; [exact Hg|]. intros k. transitivity (look k (fold_left add_default cs (sets [] given))); [reflexivity|]. rewrite (look_defaults k (sets [] given) Hn), look_sets. destruct (look k (rev given)); reflexivity.
Qed.

(** ** Loading what was stored *)
Definition with_load (f : string) (a : args) : args :=
  Args (input_sentence a) (mode a) (input_file a) (output_format a) (image_format a) (output_options a) (output_file a) (output_dir a) (parser a) (tokenise a) (split_sentences a)
    (reader a) (root_categories a) (rewrite_rules a) (ansatz a) (ansatz_options a) (store_args a) (Some f).
Lemma or_str_default o s : s <> "" -> or_str (or_str o (Some s)) (Some s) = or_str o (Some s).
Proof. intros H. destruct o as [[|c t]|]; cbn; try reflexivity; destruct s; try congruence; reflexivity. Qed.
Lemma reload a s c f : effective a s = Ok c -> mode c = Some "string-diagram" -> f <> "" ->
  effective (with_load f no_args) (fun g => if g =? f then Ok (to_store c) else Err OtherError) = Ok (with_load f (to_store c)).
Proof.
  intros E Hm Hf. unfold effective in *. destruct (match load_args a with Some _ => _ | None => _ end) as [b|]; [|discriminate]. cbn [bind] in E. cbv zeta in E.
  destruct (validate_args (defaulted b)) as [[]|] eqn:V; [|discriminate]. cbn [bind] in E. injection E as <-.
  cbn [with_load load_args]. rewrite String.eqb_refl. cbn [bind]. cbv zeta.
  assert (D : defaulted (loaded (with_load f no_args) (to_store (defaulted b))) = with_load f (to_store (defaulted b))).
  { unfold defaulted, loaded, to_store, with_load, no_args in *. cbn in Hm |- *. rewrite Hm. rewrite !or_str_default by discriminate. destruct f; [congruence|]. reflexivity. }
  rewrite D. assert (V' : validate_args (with_load f (to_store (defaulted b))) = Ok tt) by exact V. rewrite V'. reflexivity.
Qed.

(** ** Running *)
Section R.
Variable X : Type. Variable P : parts X.
Lemma drawn_ok z y : drawn P z = Ok y -> drawn_as P z y.
Proof.
  unfold drawn, drawn_as. destruct (normal P z) as [n|e]; cbn [bind].
  - destruct (draw P n) as [[]|e] eqn:En; cbn [bind]; [intros E; injection E as ->; auto|].
    destruct e; try discriminate; destruct (draw P z) as [[]|] eqn:Ez; cbn [bind]; intros E; try discriminate; injection E as ->; split; [exact Ez| |exact Ez|]; right; split; [reflexivity| |reflexivity|]; right; exists n; eexists; split; [reflexivity| |reflexivity|]; split; [exact En| |exact En|]; auto.
  - destruct e; try discriminate; destruct (draw P z) as [[]|] eqn:Ez; cbn [bind]; intros E; try discriminate; injection E as ->; split; [exact Ez| |exact Ez|]; right; split; [reflexivity| |reflexivity|]; left; eexists; split; [reflexivity| |reflexivity|]; auto.
Qed.
Lemma as_pregroup_ok a z y : among (mode a) ["ccg"] = false -> as_pregroup P z = Ok y -> printed_as P a z y.
Proof.
  intros M. unfold as_pregroup, printed_as. rewrite M. destruct (is_pregroup P z) eqn:Ez; [intros E; injection E as ->; auto|]. destruct (pregroup_nf P z) as [n|] eqn:En; [|discriminate]. cbn [bind].
  destruct (is_pregroup P n) eqn:Ep; [|discriminate]. intros E. injection E as ->. auto.
Qed.
Lemma images_ok d fmt n xs k ws : mapM (fun ix => do y <- drawn P (snd ix); Ok (Write (image_name d fmt n (fst ix)) (CImage y))) (combine (seq k (List.length xs)) xs) = Ok ws ->
  exists ys, Forall2 (drawn_as P) xs ys /\ ws = map (fun sy => Write (fst sy) (CImage (snd sy))) (combine (map (image_name d fmt n) (seq k (List.length xs))) ys).
Proof.
  revert k ws. induction xs as [|x xs IH]; intros k ws; cbn [List.length seq combine mapM].
  - intros E. injection E as <-. exists []. split; [constructor|reflexivity].
  - cbn [fst snd]. destruct (drawn P x) as [y|] eqn:Ey; [|discriminate]. cbn [bind]. destruct (mapM _ (combine _ _)) as [ws'|] eqn:E; [|discriminate]. cbn [bind].
    intros H. injection H as <-. apply IH in E as (ys & Hys & ->). exists (y :: ys). split; [constructor; [apply drawn_ok; exact Ey|exact Hys]|reflexivity].
Qed.
Lemma nth_seq' a m i : i < m -> nth_error (seq a m) i = Some (a + i).
Proof. revert a i. induction m as [|m IH]; intros a [|i] H; [lia|lia|cbn; f_equal; lia|]. cbn [seq nth_error]. rewrite IH by lia. f_equal. lia. Qed.
Lemma forall2_length {A B} (R : A -> B -> Prop) l m : Forall2 R l m -> List.length l = List.length m.
Proof. induction 1; cbn; congruence. Qed.
Lemma diagram_saved a zs es : acceptable a -> known a -> among (mode a) ["ccg"] = false -> diagram_save P a zs = Ok es -> saved_as P a zs es.
Proof.
  intros Ha [_ Hk] Mc. unfold diagram_save. destruct (among (output_format a) ["text-ascii"; "text-unicode"]) eqn:E1.
  - apply among2 in E1. destruct (mapM (as_pregroup P) zs) as [ys|] eqn:Ey; [|discriminate]. cbn [bind]. destruct (mapM (show P (use_ascii a)) ys) as [ls|] eqn:El; [|discriminate]. cbn [bind].
    intros E. injection E as <-. apply mapM_2 in Ey, El. apply (forall2_impl (fun z y => @as_pregroup_ok a z y Mc)) in Ey. unfold put_text. destruct (output_file a) as [f|] eqn:Ef.
    + apply in_text with ys; auto.
    + apply on_screen with ys; auto.
  - rewrite <- not_true_iff, among2 in E1. destruct (among (output_format a) ["json"]) eqn:E2; [discriminate|].
    destruct (among (output_format a) ["pickle"]) eqn:E3.
    + apply among1 in E3. intros E. injection E as <-. destruct (output_file a) as [f|] eqn:Ef; [constructor; auto|]. exfalso.
      destruct (has_output Ha) as [H|[H|H]]; [unfold textual in H; tauto|congruence|]. destruct (dir_for_images Ha) as [D|D]; congruence.
    + destruct (among (output_format a) ["image"]) eqn:E4.
      * apply among1 in E4. cbv zeta. set (fmt := match image_format a with Some s => s | None => "None" end). destruct (output_dir a) as [d|] eqn:Ed.
        -- destruct (mapM _ _) as [ws|] eqn:Ew; [|discriminate]. cbn [bind]. intros E. injection E as <-. apply images_ok in Ew as (ys & Hys & ->).
           apply images with (d := d); auto.
           ++ rewrite map_length, seq_length. exact (forall2_length Hys).
           ++ intros i j s t Hij Hs Ht. assert (j < List.length zs) by (apply nth_error_Some; intros N; rewrite nth_error_map in Ht; apply nth_error_None in N; rewrite (proj2 (nth_error_None _ _)) in Ht; [discriminate Ht|rewrite seq_length; exact N]).
              rewrite nth_error_map, nth_seq' in Hs, Ht by lia. cbn in Hs, Ht. injection Hs as <-. injection Ht as <-. apply image_name_lt; assumption.
           ++ intros s fmt' Hs Ef. unfold fmt in Hs. rewrite Ef in Hs. apply in_map_iff in Hs as (i & <- & _). eexists. unfold image_name. reflexivity.
        -- destruct zs as [|z [|z' zs]]; [intros E; injection E as <-; apply no_image; auto| |discriminate].
           destruct (output_file a) as [f|] eqn:Ef; [|discriminate]. destruct (drawn P z) as [y|] eqn:Ey; [|discriminate]. cbn [bind]. intros E. injection E as <-.
           apply one_image with (f := f) (z := z); auto; [apply drawn_ok; exact Ey|]. intros fmt' E. unfold fmt. rewrite E. exists (fst (splitext f)), (snd (splitext f)). split; [apply splitext_splits|apply image_file_ext].
      * exfalso. rewrite <- not_true_iff, among1 in E2, E3, E4. unfold textual in Hk. tauto.
Qed.
Lemma tree_saved a zs es : acceptable a -> known a -> mode a = Some "ccg" -> tree_save P a zs = Ok es -> saved_as P a zs es.
Proof.
  intros Ha [_ Hk] Hm. unfold tree_save. destruct (among (output_format a) ["json"]) eqn:E2.
  - apply among1 in E2. destruct (output_file a) as [f|] eqn:Ef; [|discriminate]. intros E. injection E as <-. constructor; auto.
  - destruct (among (output_format a) ["text-ascii"; "text-unicode"]) eqn:E1.
    + apply among2 in E1. destruct (mapM (show P (use_ascii a)) zs) as [ls|] eqn:El; [|discriminate]. cbn [bind].
      intros E. injection E as <-. apply mapM_2 in El. assert (Hy : Forall2 (printed_as P a) zs zs) by (apply (forall2_impl (R := fun x y => y = x)); [intros x y; unfold printed_as; rewrite (proj2 (among1 _ _) Hm); auto|apply forall2_id]).
      unfold put_text. destruct (output_file a) as [f|] eqn:Ef.
      * apply in_text with zs; auto.
      * apply on_screen with zs; auto.
    + rewrite <- not_true_iff, among2 in E1. destruct (among (output_format a) ["pickle"]) eqn:E3.
      * apply among1 in E3. intros E. injection E as <-. destruct (output_file a) as [f|] eqn:Ef; [constructor; auto|]. exfalso.
        destruct (has_output Ha) as [H|[H|H]]; [unfold textual in H; tauto|congruence|]. destruct (dir_for_images Ha) as [D|D]; congruence.
      * exfalso. rewrite <- not_true_iff, among1 in E2, E3. destruct (ccg_only Ha Hm) as (_ & _ & _ & Hi & _). unfold textual in Hk. tauto.
Qed.
Lemma run_ok a es : acceptable a -> known a -> run P a = Ok es ->
  exists ss r zs, sentences P a = Ok ss /\ parse P a ss = Ok r /\ Forall2 (stages P a) (List.concat (map (fun o => match o with Some x => [x] | None => [] end) r)) zs /\ saved_as P a zs es.
Proof.
  intros Ha Hk. unfold run, parser_module. destruct (sentences P a) as [ss|]; [|discriminate]. cbn [bind]. destruct (parse P a ss) as [r|] eqn:Er; [|discriminate]. cbn [bind]. cbv zeta.
  set (xs := List.concat _). set (tid := negb (is_some (reader a)) && among (mode a) ["ccg"; "pregroups"]).
  destruct (if tid then mapM (tidy P) xs else Ok xs) as [y1|] eqn:E1; [|discriminate]. cbn [bind]. destruct (rewriter_module P a y1) as [y2|] eqn:E2; [|discriminate]. cbn [bind].
  destruct (ansatz_module P a y2) as [zs|] eqn:E3; [|discriminate]. cbn [bind]. intros E. exists ss, r, zs. split; [reflexivity|]. split; [exact Er|]. fold xs. split.
  - assert (F1 : Forall2 (fun x y => if tid then tidy P x = Ok y else y = x) xs y1) by (destruct tid; [apply mapM_2; exact E1|injection E1 as <-; apply forall2_id]).
    assert (F2 : Forall2 (fun x y => match rewrite_rules a with Some rs => apply_rules P rs x = Ok y | None => y = x end) y1 y2).
    { unfold rewriter_module in E2. destruct (rewrite_rules a); [apply mapM_2; exact E2|injection E2 as <-; apply forall2_id]. }
    assert (F3 : Forall2 (fun x z => match ansatz a with Some s => exists n k, look "dim_n" (ansatz_options a) = Some n /\ look "dim_s" (ansatz_options a) = Some k /\ apply_ansatz P s n k (ansatz_options a) x = Ok z | None => z = x end) y2 zs).
    { unfold ansatz_module in E3. destruct (ansatz a) as [s|]; [|injection E3 as <-; apply forall2_id]. destruct (look "dim_n" _) as [n|]; [|discriminate]. destruct (look "dim_s" _) as [k|]; [|discriminate].
      apply mapM_2 in E3. apply (forall2_impl (R := fun x y => apply_ansatz P s n k (ansatz_options a) x = Ok y)); [|exact E3]. intros x y H. exists n, k. auto. }
    pose proof (forall2_comp F1 (forall2_comp F2 F3)) as F. apply (forall2_impl (fun x z H => match H with ex_intro _ y (conj A (ex_intro _ w (conj B C))) => @stages_intro X P a x z y w A B C end) F).
  - destruct (among (mode a) ["string-diagram"; "pregroups"]) eqn:Em; [apply diagram_saved; try assumption; apply among2 in Em; rewrite <- not_true_iff, among1; destruct Em as [Em|Em]; rewrite Em; discriminate|]. rewrite <- not_true_iff, among2 in Em.
    apply tree_saved; auto. destruct Hk as [Hm _]. tauto.
Qed.
(** what can go wrong when the other parts do not *)
Lemma ok_get {A} (x : res A) : is_ok x = true -> exists v, x = Ok v.
Proof. destruct x as [v|]; [exists v; reflexivity|discriminate]. Qed.
Lemma mapM_total {A B} (f : A -> res B) l : (forall x, is_ok (f x) = true) -> exists r, mapM f l = Ok r.
Proof. intros H. induction l as [|x l (r & IH)]; [exists []; reflexivity|]. cbn [mapM]. destruct (ok_get (H x)) as (y & ->). cbn [bind]. rewrite IH. eexists. reflexivity. Qed.
Lemma mapM_err {A B} (f : A -> res B) l e : mapM f l = Err e -> exists x, f x = Err e.
Proof.
  induction l as [|x l IH]; [discriminate|]. cbn [mapM]. destruct (f x) as [y|e'] eqn:Ex; cbn [bind].
  - destruct (mapM f l); [discriminate|]. cbn [bind]. intros E. apply IH. injection E as ->. reflexivity.
  - intros E. injection E as ->. exists x. exact Ex.
Qed.
Lemma drawn_err z e : (forall x, is_ok (draw P x) = true) -> drawn P z = Err e -> normal P z = Err e.
Proof.
  intros T. unfold drawn. destruct (normal P z) as [n|e']; cbn [bind].
  - destruct (ok_get (T n)) as (u & ->). discriminate.
  - destruct (ok_get (T z)) as (u & ->). destruct e'; cbn [bind]; try discriminate; intros E; injection E as <-; reflexivity.
Qed.
Lemma run_errors a e : acceptable a -> known a -> total P -> run P a = Err e ->
  (e = NotImplementedError /\ output_format a = Some "json" /\ mode a <> Some "ccg") \/
  (e = KeyError /\ ansatz a <> None /\ (look "dim_n" (ansatz_options a) = None \/ look "dim_s" (ansatz_options a) = None)) \/
  (e = ValueError /\ output_format a = Some "image" /\ output_dir a = None) \/
  (e = ValueError /\ textual a /\ exists x y, pregroup_nf P x = Ok y /\ is_pregroup P y = false) \/
  (output_format a = Some "image" /\ exists x, normal P x = Err e).
Proof.
  intros Ha [Hm Hk] (T1 & T2 & T3 & T4 & T5 & T6 & T7 & T8). unfold run, parser_module. destruct (ok_get (T1 a)) as (ss & ->). cbn [bind]. destruct (ok_get (T2 a ss)) as (r & ->). cbn [bind]. cbv zeta.
  set (xs := List.concat _). assert (E1 : exists y1, (if negb (is_some (reader a)) && among (mode a) ["ccg"; "pregroups"] then mapM (tidy P) xs else Ok xs) = Ok y1).
  { destruct (_ && _); [apply mapM_total; exact T3|eexists; reflexivity]. }
  destruct E1 as (y1 & ->). cbn [bind]. assert (E2 : exists y2, rewriter_module P a y1 = Ok y2).
  { unfold rewriter_module. destruct (rewrite_rules a); [apply mapM_total; apply T4|eexists; reflexivity]. }
  destruct E2 as (y2 & ->). cbn [bind]. destruct (ansatz_module P a y2) as [zs|e'] eqn:E3.
  2:{ cbn [bind]. intros E. injection E as ->. unfold ansatz_module in E3. destruct (ansatz a) as [s|]; [|discriminate]. right. left.
      destruct (look "dim_n" _) as [n|]; [destruct (look "dim_s" _) as [k|]|].
      - destruct (mapM_total (f := apply_ansatz P s n k (ansatz_options a)) y2 (T5 s n k _)) as (q & Eq). rewrite Eq in E3. discriminate E3.
      - injection E3 as <-. split; [reflexivity|]. split; [discriminate|auto].
      - injection E3 as <-. split; [reflexivity|]. split; [discriminate|auto]. }
  clear E3. cbn [bind]. destruct (among (mode a) ["string-diagram"; "pregroups"]) eqn:Em.
  - apply among2 in Em. unfold diagram_save. destruct (among (output_format a) ["text-ascii"; "text-unicode"]) eqn:F1.
    + apply among2 in F1. destruct (mapM (as_pregroup P) zs) as [ys|e'] eqn:Ey.
      * cbn [bind]. destruct (mapM_total (f := show P (use_ascii a)) ys (T7 _)) as (ls & ->). discriminate.
      * cbn [bind]. intros E. injection E as ->. right. right. right. left. apply mapM_err in Ey as (z & Ez). unfold as_pregroup in Ez.
        destruct (is_pregroup P z); [discriminate|]. destruct (ok_get (T6 z)) as (n & En). rewrite En in Ez. cbn [bind] in Ez.
        destruct (is_pregroup P n) eqn:Ei; [discriminate|]. injection Ez as <-. split; [reflexivity|]. split; [exact F1|]. exists z, n. auto.
    + rewrite <- not_true_iff, among2 in F1. destruct (among (output_format a) ["json"]) eqn:F2.
      * apply among1 in F2. intros E. injection E as <-. left. repeat split; auto. destruct Em as [-> | ->]; discriminate.
      * destruct (among (output_format a) ["pickle"]); [discriminate|]. destruct (among (output_format a) ["image"]) eqn:F4; [|discriminate]. apply among1 in F4. cbv zeta.
        set (fmt := match image_format a with Some s => s | None => "None" end).
        destruct (output_dir a) as [d|] eqn:Ed.
        -- destruct (mapM _ (combine _ _)) as [ws|e'] eqn:Ew; cbn [bind]; [discriminate|]. intros E. injection E as ->. right. right. right. right. split; [exact F4|].
           apply mapM_err in Ew as ([i z] & Ez). cbn [snd] in Ez. destruct (drawn P z) as [y|e'] eqn:Ey; cbn [bind] in Ez; [discriminate|]. injection Ez as ->. exists z. exact (drawn_err T8 Ey).
        -- destruct zs as [|z [|z' zs]]; [discriminate| |].
           ++ destruct (output_file a) as [f|] eqn:Ef.
              ** destruct (drawn P z) as [y|e'] eqn:Ey; cbn [bind]; [discriminate|]. intros E. injection E as ->. right. right. right. right. split; [exact F4|]. exists z. exact (drawn_err T8 Ey).
              ** exfalso. destruct (has_output Ha) as [H|[H|H]]; [unfold textual in H; tauto|congruence|congruence].
           ++ intros E. injection E as <-. right. right. left. auto.
  - unfold tree_save. destruct (among (output_format a) ["json"]) eqn:F2.
    + apply among1 in F2. destruct (output_file a) as [f|] eqn:Ef; [discriminate|]. exfalso.
      destruct (has_output Ha) as [H|[H|H]]; [unfold textual in H; rewrite F2 in H; destruct H; discriminate|congruence|]. destruct (dir_for_images Ha) as [D|D]; congruence.
    + destruct (among (output_format a) ["text-ascii"; "text-unicode"]); [|destruct (among (output_format a) ["pickle"]); discriminate].
      destruct (mapM_total (f := show P (use_ascii a)) zs (T7 _)) as (ls & ->). discriminate.
Qed.
End R.
