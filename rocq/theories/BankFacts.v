(** Reading CCGBank derivations (proofs only). *)
From Coq Require Import Ascii.
From Verif Require Import PyBase CCGModel CCGSpec CCGTypeFacts CCGTreeFacts ReaderModel BankModel BankSpec.
Close Scope string_scope. Set Implicit Arguments. Unset Strict Implicit.

Definition stops (p : ascii -> bool) (s : chars) : Prop := match s with c :: _ => p c = false | [] => True end.
Lemma span_app p a b : Forall (fun c => p c = true) a -> stops p b -> span p (a ++ b) = (a, b).
Proof. induction 1 as [|c a Hc _ IH]; intros S; cbn. - destruct b as [|c b]; cbn in *; auto. now rewrite S. - now rewrite Hc, IH. Qed.
Lemma span_inv p s : forall a b, span p s = (a, b) -> s = a ++ b /\ Forall (fun c => p c = true) a /\ stops p b.
Proof.
  induction s as [|c s IH]; intros a b; cbn; [intros [= <- <-]; repeat split; constructor|]. destruct (p c) eqn:E.
  - destruct (span p s) as [a' b'] eqn:Es. intros [= <- <-]. destruct (IH _ _ eq_refl) as (-> & F & S). repeat split; auto.
  - intros [= <- <-]. repeat split; cbn; auto.
Qed.
Lemma plus_app p a b : a <> [] -> Forall (fun c => p c = true) a -> stops p b -> plus p (a ++ b) = Some (a, b).
Proof. intros N F S. unfold plus. rewrite span_app by auto. destruct a; congruence. Qed.
Lemma plus_inv p s a b : plus p s = Some (a, b) -> s = a ++ b /\ a <> [] /\ Forall (fun c => p c = true) a /\ stops p b.
Proof. unfold plus. destruct (span p s) as [[|c a'] b'] eqn:E; intros [= <- <-]. apply span_inv in E as (-> & F & S). repeat split; auto. discriminate. Qed.
Lemma lit_inv c s r : lit c s = Some r -> s = c :: r.
Proof. unfold lit. destruct s as [|x s]; [discriminate|]. destruct (Ascii.eqb_spec x c); intros [= <-]; now subst. Qed.
Lemma lit_ok c r : lit c (c :: r) = Some r. Proof. cbn. now rewrite Ascii.eqb_refl. Qed.
Lemma ws_span w r : is_ws w -> no_lead r -> plus is_space (w ++ r) = Some (w, r).
Proof. intros [N F] L. apply plus_app; auto. Qed.
Lemma nsp c : nonspace c = true <-> is_space c = false. Proof. unfold nonspace. now rewrite negb_true_iff. Qed.
Lemma field_all w : Forall (fun c => is_space c = false) w <-> Forall (fun c => nonspace c = true) w.
Proof. split; apply Forall_impl; intros c; apply nsp. Qed.
Lemma ws_stops w r : is_ws w -> stops nonspace (w ++ r).
Proof. intros [N F]. destruct w as [|c w]; [congruence|]. inversion F; subst. cbn. unfold nonspace. match goal with H : is_space c = true |- _ => now rewrite H end. Qed.
Lemma field_span w ws r : is_field w -> is_ws ws -> plus nonspace (w ++ ws ++ r) = Some (w, ws ++ r).
Proof. intros [N F] W. apply plus_app; auto; [now apply field_all|now apply ws_stops]. Qed.
Lemma field_lead w r : is_field w -> no_lead (w ++ r).
Proof. intros [N F]. destruct w; [congruence|]. now inversion F. Qed.
Lemma last_close_ok p : last_close (p ++ str ">)") = Some (p, []).
Proof. induction p as [|c p IH]; [reflexivity|]. cbn [app last_close]. now rewrite IH. Qed.
Lemma last_close_inv w : forall p q, last_close w = Some (p, q) -> w = p ++ str ">)" ++ q.
Proof.
  induction w as [|c w IH]; intros p q; [discriminate|]. cbn [last_close]. destruct (last_close w) as [[p' q']|] eqn:E.
  - intros [= <- <-]. now rewrite (IH _ _ eq_refl).
  - destruct w as [|d q']; [discriminate|]. destruct (Ascii.eqb_spec c ">"), (Ascii.eqb_spec d ")"); cbn; intros [= <- <-]. now subst.
Qed.
Lemma close_ok pa w r : is_field pa -> opt_ws w -> (w <> [] \/ r = []) -> close_leaf (pa ++ str ">)" ++ w ++ r) = Some (pa, w ++ r).
Proof.
  intros [N F] W H. unfold close_leaf. rewrite app_assoc, span_app.
  - destruct pa as [|c pa]; [congruence|]. cbn [app]. now rewrite last_close_ok.
  - apply Forall_app. split; [now apply field_all|repeat constructor].
  - destruct H as [H| ->]; [|rewrite app_nil_r]; (destruct w as [|c w]; [cbn; auto; try congruence|]); inversion W; subst; cbn; unfold nonspace; match goal with H : is_space c = true |- _ => now rewrite H end.
Qed.
Lemma close_inv s p r : close_leaf s = Some (p, r) -> s = p ++ str ">)" ++ r /\ is_field p.
Proof.
  unfold close_leaf. destruct (span nonspace s) as [[|c w] r'] eqn:E; [discriminate|]. apply span_inv in E as (-> & F & _). destruct (last_close w) as [[p' q]|] eqn:El; [|discriminate]. intros [= <- <-].
  apply last_close_inv in El as ->. apply field_all in F. inversion F as [|? ? F1 F2]; subst. apply Forall_app in F2 as [F2 _]. split; [cbn; rewrite <- app_assoc; reflexivity|]. split; [discriminate|]. constructor; auto.
Qed.
Lemma skip_ok w r : opt_ws w -> no_lead r -> skip_spaces (w ++ r) = r.
Proof. intros W L. unfold skip_spaces. now rewrite span_app. Qed.
Lemma skip_inv s : exists w, opt_ws w /\ s = w ++ skip_spaces s /\ no_lead (skip_spaces s).
Proof. unfold skip_spaces. destruct (span is_space s) as [w r] eqn:E. apply span_inv in E as (-> & F & S). exists w. auto. Qed.
Lemma ws_inv s w r : plus is_space s = Some (w, r) -> s = w ++ r /\ is_ws w /\ no_lead r.
Proof. intros E. apply plus_inv in E as (-> & N & F & S). repeat split; auto. Qed.
Lemma field_inv s w r : plus nonspace s = Some (w, r) -> s = w ++ r /\ is_field w.
Proof. intros E. apply plus_inv in E as (-> & N & F & S). repeat split; auto. now apply field_all. Qed.
(** ** one node *)
Lemma match_leaf w1 w2 w3 w4 w5 w6 cat mp op word pa r :
  is_ws w1 -> is_ws w2 -> is_ws w3 -> is_ws w4 -> is_ws w5 -> opt_ws w6 -> is_field cat -> is_field mp -> is_field op -> is_field word -> is_field pa -> no_lead r -> w6 <> [] \/ r = [] ->
  match_node (str "(<L" ++ w1 ++ cat ++ w2 ++ mp ++ w3 ++ op ++ w4 ++ word ++ w5 ++ pa ++ str ">)" ++ w6 ++ r) = Some (cat, Some word, r).
Proof.
  intros. unfold match_node. change (str "(<L" ++ ?x) with ("("%char :: "<"%char :: "L"%char :: x). rewrite !lit_ok. cbn [Ascii.eqb]. change (Ascii.eqb "L" "L") with true.
  rewrite ws_span; [|auto|now apply field_lead]. rewrite field_span by auto. rewrite ws_span; [|auto|now apply field_lead]. rewrite field_span by auto. rewrite ws_span; [|auto|now apply field_lead]. rewrite field_span by auto.
  rewrite ws_span; [|auto|now apply field_lead]. rewrite field_span by auto. rewrite ws_span; [|auto|now apply field_lead]. rewrite close_ok by auto. now rewrite skip_ok.
Qed.
Lemma match_tree w1 w2 w3 w4 cat (h : bool) n s : is_ws w1 -> is_ws w2 -> is_ws w3 -> opt_ws w4 -> is_field cat -> digits n -> no_lead s ->
  match_node (str "(<T" ++ w1 ++ cat ++ w2 ++ (if h then "1" else "0")%char :: w3 ++ n ++ str ">" ++ w4 ++ s) = Some (cat, None, s).
Proof.
  intros. unfold match_node. change (str "(<T" ++ ?x) with ("("%char :: "<"%char :: "T"%char :: x). rewrite !lit_ok. change (Ascii.eqb "T" "L") with false. change (Ascii.eqb "T" "T") with true. cbv iota.
  rewrite ws_span; [|auto|now apply field_lead]. rewrite field_span by auto. rewrite ws_span; [|auto|destruct h; reflexivity].
  replace (Ascii.eqb (if h then "1" else "0")%char "0" || Ascii.eqb (if h then "1" else "0")%char "1") with true by (destruct h; reflexivity).
  assert (D : no_lead (n ++ str ">" ++ w4 ++ s)). { match goal with D : digits n |- _ => destruct D as [N F]; destruct n as [|c n]; [congruence|]; inversion F as [|? ? E _]; subst end. cbn. unfold is_digit in E. cbv zeta in E. unfold is_space. cbv zeta. set (k := nat_of_ascii c) in *. apply andb_prop in E as [E1 E2]. apply Nat.leb_le in E1, E2. rewrite !orb_false_iff, !andb_false_iff, !Nat.leb_gt, !Nat.eqb_neq. lia. }
  rewrite ws_span; auto. match goal with D : digits n |- _ => destruct D as [N F] end. rewrite plus_app; auto; [|reflexivity]. change (str ">" ++ w4 ++ s) with (">"%char :: w4 ++ s). rewrite lit_ok. now rewrite skip_ok.
Qed.
Ltac opt_step H := match type of H with context [match ?e with Some _ => _ | None => None end] => let E := fresh "E" in destruct e as [?p|] eqn:E; [|discriminate H]; repeat match type of H with context [let '(_, _) := ?q in _] => is_var q; destruct q end end.
Lemma match_inv s cat w r : match_node s = Some (cat, w, r) ->
  match w with
  | Some word => exists w1 w2 w3 w4 w5 w6 mp op pa, is_ws w1 /\ is_ws w2 /\ is_ws w3 /\ is_ws w4 /\ is_ws w5 /\ opt_ws w6 /\ is_field cat /\ is_field mp /\ is_field op /\ is_field word /\ is_field pa /\ no_lead r /\
      s = str "(<L" ++ w1 ++ cat ++ w2 ++ mp ++ w3 ++ op ++ w4 ++ word ++ w5 ++ pa ++ str ">)" ++ w6 ++ r
  | None => exists w1 w2 w3 w4 (h : bool) n, is_ws w1 /\ is_ws w2 /\ is_ws w3 /\ opt_ws w4 /\ is_field cat /\ digits n /\ no_lead r /\
      s = str "(<T" ++ w1 ++ cat ++ w2 ++ (if h then "1" else "0")%char :: w3 ++ n ++ str ">" ++ w4 ++ r
  end.
Proof.
  unfold match_node. intros H. opt_step H. apply lit_inv in E as ->. opt_step H. apply lit_inv in E as ->. destruct p0 as [|k s]; [discriminate|]. destruct (Ascii.eqb_spec k "L") as [->|_].
  - repeat opt_step H.
    repeat match goal with E : plus is_space _ = _ |- _ => apply ws_inv in E as (-> & ? & ?) | E : plus nonspace _ = _ |- _ => apply field_inv in E as (-> & ?) | E : close_leaf _ = _ |- _ => apply close_inv in E as (-> & ?) end.
    inversion H; subst. match goal with |- context [no_lead (skip_spaces ?q)] => destruct (skip_inv q) as (w6 & W & E & L) end. exists l, l3, l7, l11, l15, w6, l5, l9, l17. repeat (split; [assumption|]). rewrite <- E. reflexivity.
  - destruct (Ascii.eqb_spec k "T") as [->|_]; [|discriminate].
    do 3 opt_step H. match type of H with match ?x with _ => _ end = _ => destruct x as [|h s']; [discriminate|] end. destruct (Ascii.eqb h "0" || Ascii.eqb h "1") eqn:Eh; [|discriminate].
    opt_step H. opt_step H. match goal with E : plus is_digit _ = _ |- _ => apply plus_inv in E as (-> & N3 & F3 & _) end. opt_step H. match goal with E : lit _ _ = _ |- _ => apply lit_inv in E as -> end. inversion H; subst.
    repeat match goal with E : plus is_space _ = _ |- _ => apply ws_inv in E as (-> & ? & ?) | E : plus nonspace _ = _ |- _ => apply field_inv in E as (-> & ?) end.
    match goal with |- context [no_lead (skip_spaces ?q)] => destruct (skip_inv q) as (w6 & W & E & L) end. exists l, l3, l4, w6, (Ascii.eqb h "1"), l6. repeat (split; [assumption|]). split; [split; assumption|]. split; [assumption|].
    replace (if Ascii.eqb h "1" then "1"%char else "0"%char) with h by (destruct (Ascii.eqb_spec h "1"); auto; destruct (Ascii.eqb_spec h "0"); auto; discriminate).
    cbn [str app]. rewrite <- E. reflexivity.
Qed.
(** ** categories *)
Lemma str_app a b : str (a ++ b)%string = str a ++ str b. Proof. induction a; cbn; congruence. Qed.
Lemma str_inj a b : str a = str b -> a = b.
Proof. intros E. rewrite <- (string_of_list_ascii_of_string a), <- (string_of_list_ascii_of_string b). now rewrite E. Qed.
Lemma feature_ok_spec f : (f = [] \/ exists f', f = "["%char :: f') -> (feature_ok f = true <-> feature f).
Proof.
  intros H. split.
  - destruct H as [->|(f' & ->)]; [constructor|]. cbn. destruct (span is_lower f') as [[|c a] b] eqn:E; [discriminate|]. destruct b as [|d [|]]; try discriminate. destruct (Ascii.eqb_spec d "]"); [|discriminate]. intros _. subst d. apply span_inv in E as (-> & F & _). constructor; [discriminate|auto].
  - destruct 1 as [|l N F]; [reflexivity|]. cbn. rewrite span_app; auto; [|reflexivity]. destruct l; [congruence|]. reflexivity.
Qed.
Lemma split_feature_inv s : forall a b, split_feature s = (a, b) -> s = a ++ b /\ ~ In "["%char a /\ (b = [] \/ exists b', b = "["%char :: b').
Proof.
  induction s as [|c s IH]; intros a b; cbn; [intros [= <- <-]; cbn; auto|]. destruct (Ascii.eqb_spec c "[").
  - intros [= <- <-]. subst. cbn. repeat split; eauto.
  - destruct (split_feature s) as [a' b'] eqn:E. intros [= <- <-]. destruct (IH _ _ eq_refl) as (-> & N & B). repeat split; auto. intros [?|?]; auto.
Qed.
Lemma split_feature_ok a b : ~ In "["%char a -> (b = [] \/ exists b', b = "["%char :: b') -> split_feature (a ++ b) = (a, b).
Proof.
  induction a as [|c a IH]; intros N B; cbn.
  - destruct B as [->|(b' & ->)]; auto.
  - destruct (Ascii.eqb_spec c "["); [exfalso; apply N; now left|]. rewrite IH; auto. intros I. apply N. now right.
Qed.
Lemma feature_head f : feature f -> f = [] \/ exists f', f = "["%char :: f'. Proof. destruct 1; eauto. Qed.
Lemma atomic_iff a b : map_atomic a = Ok b <-> atomic a b.
Proof.
  split.
  - unfold map_atomic. destruct (split_feature (str a)) as [x f] eqn:E. apply split_feature_inv in E as (E & N & B). apply feature_ok_spec in B.
    assert (Ea : a = (string_of_list_ascii x ++ string_of_list_ascii f)%string) by (apply str_inj; rewrite str_app, !list_ascii_of_string_of_list_ascii; exact E).
    destruct (feature_ok f); cbn [andb].
    + assert (F : feature (str (string_of_list_ascii f))) by (rewrite list_ascii_of_string_of_list_ascii; now apply B).
      repeat match goal with |- context [(string_of_list_ascii x =? ?k)%string] => destruct (String.eqb_spec (string_of_list_ascii x) k) as [Ex|_]; [rewrite Ex in Ea; intros [= <-]; rewrite Ea; constructor; [cbn; tauto|exact F]|] end.
      destruct (String.eqb_spec a "conj") as [e|_]; [intros [= <-]; rewrite e; constructor|]. destruct (existsb _ _) eqn:Ee; [|discriminate]. intros [= <-]. apply existsb_exists in Ee as (p & I1 & Ep). apply String.eqb_eq in Ep. rewrite Ep. now constructor.
    + destruct (String.eqb_spec a "conj") as [e|_]; [intros [= <-]; rewrite e; constructor|]. destruct (existsb _ _) eqn:Ee; [|discriminate]. intros [= <-]. apply existsb_exists in Ee as (p & I1 & Ep). apply String.eqb_eq in Ep. rewrite Ep. now constructor.
  - destruct 1 as [b n f I1 F| |p I1].
    + assert (B := feature_head F). assert (Fo := proj2 (feature_ok_spec B) F). unfold map_atomic. rewrite str_app. rewrite split_feature_ok; auto.
      * rewrite Fo, string_of_list_ascii_of_string. repeat (destruct I1 as [I1|I1]; [inversion I1; subst; reflexivity|]). contradiction.
      * repeat (destruct I1 as [I1|I1]; [inversion I1; subst; cbn; intuition discriminate|]). contradiction.
    + reflexivity.
    + repeat (destruct I1 as [I1|I1]; [subst p; reflexivity|]). contradiction.
Qed.
Lemma renamed_iff t : forall u, map_atoms t = Ok u <-> renamed t u.
Proof.
  induction t as [|a|r IHr d a IHa]; intros u; cbn [map_atoms].
  - split; [discriminate|intros H; inversion H].
  - destruct (map_atomic a) as [b|] eqn:E; cbn; split; intros H; try discriminate.
    + inversion H; subst. constructor. now apply atomic_iff.
    + inversion H as [a1 b1 Q|]; subst. apply atomic_iff in Q. congruence.
    + inversion H as [a1 b1 Q|]; subst. apply atomic_iff in Q. congruence.
  - destruct (map_atoms r) as [r'|] eqn:Er; cbn [bind].
    + destruct (map_atoms a) as [a'|] eqn:Ea; cbn [bind]; split; intros H; try discriminate.
      * inversion H; subst. constructor; [now apply IHr|now apply IHa].
      * inversion H as [|? ? ? r1 a1 Q1 Q2]; subst. apply IHr in Q1. apply IHa in Q2. congruence.
      * inversion H as [|? ? ? r1 a1 Q1 Q2]; subst. apply IHa in Q2. congruence.
    + split; [discriminate|]. intros H. inversion H as [|? ? ? r1 a1 Q1 Q2]; subst. apply IHr in Q1. congruence.
Qed.
Lemma category_iff s t : read_cat s = Ok t <-> category s t.
Proof.
  unfold read_cat. cbv zeta. set (typo := "((S[b]\NP)/NP)/"%string). destruct (String.eqb_spec (string_of_list_ascii s) typo) as [E|E].
  - assert (Es : s = str typo) by (rewrite <- E; symmetry; apply list_ascii_of_string_of_list_ascii). subst s. split.
    + destruct (parse _) as [u| | |] eqn:P; try discriminate. intros M. apply parse_spec in P. apply renamed_iff in M. eapply Cat_typo; eauto.
    + intros C. inversion C as [s1 u u' N D R|u u' D R]; subst; [exfalso; apply N; reflexivity|]. apply parse_spec in D. unfold parse. rewrite D. now apply renamed_iff.
  - split.
    + destruct (parse _) as [u| | |] eqn:P; try discriminate. intros M. apply parse_spec in P. rewrite list_ascii_of_string_of_list_ascii in P. apply renamed_iff in M. eapply Cat; eauto. intros Es. apply E. rewrite Es. apply string_of_list_ascii_of_string.
    + intros C. inversion C as [s1 u u' N D R|u u' D R Q]; subst.
      * unfold parse. rewrite <- (list_ascii_of_string_of_list_ascii s) in D. apply parse_spec in D. rewrite D. now apply renamed_iff.
      * exfalso. apply E. apply string_of_list_ascii_of_string.
Qed.
Lemma unescape_iff w u : unescape w = u <-> plain_word w u.
Proof.
  unfold unescape. split.
  - intros <-. destruct (String.eqb_spec w "-LCB-") as [->|]; [apply PW_esc; cbn; tauto|]. destruct (String.eqb_spec w "-RCB-") as [->|]; [apply PW_esc; cbn; tauto|]. destruct (String.eqb_spec w "-LRB-") as [->|]; [apply PW_esc; cbn; tauto|].
    destruct (String.eqb_spec w "-RRB-") as [->|]; [apply PW_esc; cbn; tauto|]. apply PW_same. cbn. intuition congruence.
  - destruct 1 as [e p I1|w N].
    + repeat (destruct I1 as [I1|I1]; [inversion I1; subst; reflexivity|]). contradiction.
    + cbn in N. repeat match goal with |- context [(w =? ?k)%string] => destruct (String.eqb_spec w k); [subst; exfalso; tauto|] end. reflexivity.
Qed.
(** ** trees *)
Lemma unescape_some w : is_field w -> truthy (Some (unescape (string_of_list_ascii w))) = true.
Proof.
  intros [N _]. unfold unescape. repeat match goal with |- context [(?a =? ?k)%string] => destruct (String.eqb_spec a k); [reflexivity|] end. cbn. destruct w; [congruence|]. reflexivity.
Qed.
Lemma build_len : forall strict b s r, reads strict b s r -> List.length r < List.length s.
Proof.
  fix IH 5. intros strict b s r H. destruct H as [w1 w2 w3 w4 w5 w6 cat mp op word pa r|w1 w2 w3 w4 cat h n bs s c r ? ? ? ? ? ? ? L].
  - rewrite !app_length. cbn. lia.
  - assert (G : List.length (")"%char :: c ++ r) <= List.length s).
    { clear -IH L. induction L as [s|b bs s s' r' Hb L IHL]; [lia|]. assert (Q := IH _ _ _ _ Hb). lia. }
    cbn [List.length] in G. rewrite !app_length in *. cbn [List.length app]. rewrite !app_length. cbn. lia.
Qed.
Lemma mk_leaf w t : is_field w -> mk_tree (Some (unescape (string_of_list_ascii w))) UNKNOWN t [] = Ok (CT (Some (unescape (string_of_list_ascii w))) LEXICAL t []).
Proof. intros F. unfold mk_tree. cbn [rule_eqb negb andb]. rewrite unescape_some by auto. reflexivity. Qed.
Lemma mk_node ru t xs y : mk_tree None ru t xs = Ok y <-> y = CT None ru t xs /\ (ru = UNKNOWN \/ List.length xs = required_children ru).
Proof.
  unfold mk_tree. cbn [truthy andb]. destruct (rule_eqb ru UNKNOWN) eqn:Er; cbn [negb andb].
  - split; [intros [= <-]; split; auto; left; destruct ru; auto; discriminate|]. now intros [-> _].
  - destruct (Nat.eqb_spec (List.length xs) (required_children ru)); cbn [negb]; split; intros H; try discriminate.
    + inversion H. auto.
    + now destruct H as [-> _].
    + destruct H as [_ [->|?]]; [discriminate|contradiction].
Qed.
Lemma reads_start strict b s r : reads strict b s r -> exists s', s = "("%char :: s'.
Proof. destruct 1; eexists; reflexivity. Qed.
Lemma complete f : forall b s r x, reads true b s r -> denotes b x -> List.length s <= f -> build (S f) s = Ok (x, r).
Proof.
  induction f as [|f IH]; intros b s r x R D L. { apply build_len in R. lia. }
  cbn [build]. inversion R; subst; inversion D; subst.
  - rewrite match_leaf; auto. match goal with C : category _ _ |- _ => apply category_iff in C; rewrite C end. cbn [bind]. rewrite mk_leaf by auto. cbn [bind]. match goal with P : plain_word _ _ |- _ => apply unescape_iff in P; now rewrite P end.
  - rewrite match_tree by auto. match goal with C : category _ _ |- _ => apply category_iff in C; rewrite C end. cbn [bind].
    match goal with RL : reads_list true bs ?s0 ?r0, F2 : Forall2 denotes bs xs |- _ =>
      assert (G : forall n, List.length s0 <= n -> build_children (build (S f)) n s0 = Ok (xs, r0)) end.
    { assert (L' : List.length s0 <= f) by (rewrite !app_length in L; cbn [List.length app] in L; rewrite !app_length in L; cbn in L; lia).
      match goal with H1 : reads_list true bs s0 _, H2 : Forall2 denotes bs xs |- _ => rename H1 into RLL; rename H2 into F22 end. clear - IH RLL F22 L'. revert s0 RLL L'. induction F22 as [|b x0 bs xs Db F2 IHF]; intros s0 RL L' n Ln.
      - inversion RL; subst. destruct n; reflexivity.
      - inversion RL as [|? ? ? s1 ? Rb Rl]; subst. destruct (reads_start Rb) as (s' & Es). assert (Q := build_len Rb). destruct n as [|n]; [cbn in Ln; lia|]. cbn [build_children]. rewrite Es at 1. change (Ascii.eqb "(" ")") with false. cbv iota. rewrite Es at 1.
        rewrite <- Es. rewrite (IH _ _ _ _ Rb Db) by lia. cbn [bind]. rewrite (IHF _ Rl) by lia. reflexivity. }
    rewrite G by lia. cbn [bind]. match goal with I1 : infer_rule _ _ = _ |- _ => rewrite I1 end. cbn [bind].
    match goal with O : _ \/ _ |- _ => rewrite (proj2 (mk_node _ _ _ _) (conj eq_refl O)) end. cbn [bind]. f_equal. f_equal. clear G. destruct c as [|a [|]]; [|reflexivity|cbn in *; lia]. match goal with H : [] = [] -> r = [] |- _ => now rewrite (H eq_refl) end.
Qed.
Lemma sound f : forall s x r, build f s = Ok (x, r) -> exists b, reads false b s r /\ denotes b x.
Proof.
  induction f as [|f IH]; intros s x r E; [discriminate|]. cbn [build] in E. destruct (match_node s) as [[[cat w] s']|] eqn:M; [|discriminate]. apply match_inv in M. destruct (read_cat cat) as [t|] eqn:C; [|discriminate]. apply category_iff in C. cbn [bind] in E. destruct w as [word|].
  - destruct M as (w1 & w2 & w3 & w4 & w5 & w6 & mp & op & pa & ? & ? & ? & ? & ? & ? & ? & ? & ? & ? & ? & ? & ->). rewrite mk_leaf in E by auto. inversion E; subst. exists (BLeaf cat mp op word pa). split.
    + apply R_leaf; auto. discriminate.
    + constructor; auto. now apply unescape_iff.
  - destruct M as (w1 & w2 & w3 & w4 & h & n & ? & ? & ? & ? & ? & ? & ? & ->).
    destruct (build_children (build f) (S (List.length s')) s') as [[xs s'']|] eqn:B; [|discriminate]. cbn [bind] in E. destruct (infer_rule _ _) as [ru|] eqn:I1; [|discriminate]. cbn [bind] in E. destruct (mk_tree _ _ _ _) as [y|] eqn:K; [|discriminate]. cbn [bind] in E. inversion E; subst. apply mk_node in K as (-> & O).
    assert (G : exists bs rest, s'' = ")"%char :: rest /\ reads_list false bs s' s'' /\ Forall2 denotes bs xs).
    { clear - IH B. remember (S (List.length s')) as k. clear Heqk. revert s' xs s'' B. induction k as [|k IHk]; intros s' xs s'' B; cbn [build_children] in B; (destruct s' as [|c s']; [discriminate|]); destruct (Ascii.eqb_spec c ")"); try discriminate; try (inversion B; subst; exists [], s'; repeat split; constructor).
      destruct (build f (c :: s')) as [[x s1]|] eqn:E1; [|discriminate]. cbn [bind] in B. destruct (build_children _ _ s1) as [[xs1 s2]|] eqn:E2; [|discriminate]. cbn [bind] in B. inversion B; subst.
      destruct (IH _ _ _ E1) as (b & Rb & Db). destruct (IHk _ _ _ E2) as (bs & rest & -> & Rl & F2). exists (b :: bs), rest. split; auto. split; [econstructor; eauto|constructor; auto]. }
    destruct G as (bs & rest & -> & Rl & F2). exists (BNode cat h n bs). split.
    + destruct rest as [|a rest]; cbn [skipn].
      * apply (@R_node false w1 w2 w3 w4 cat h n bs s' [] []); auto. discriminate.
      * apply (@R_node false w1 w2 w3 w4 cat h n bs s' [a] rest); auto; discriminate.
    + econstructor; eauto.
Qed.
(** ** sentences *)
Lemma len_str s : List.length (str s) = String.length s. Proof. induction s; cbn; congruence. Qed.
Lemma accepts s b x sup : derivation s b -> denotes b x -> sentence2tree sup s = Ok (Some x).
Proof. intros R D. unfold sentence2tree. rewrite (complete R D) by (rewrite len_str; lia). reflexivity. Qed.
Lemma accepted s r : sentence2tree false s = Ok r -> exists b x, r = Some x /\ reads false b (str s) [] /\ denotes b x.
Proof. unfold sentence2tree. destruct (build _ _) as [[x [|]]|] eqn:E; intros H; inversion H; subst. destruct (sound E) as (b & R & D). eauto. Qed.
Lemma refused s e : sentence2tree false s = Err e -> e = OtherError. Proof. unfold sentence2tree. destruct (build _ _) as [[x [|]]|]; congruence. Qed.
Lemma suppressed s : exists r, sentence2tree true s = Ok r /\ (forall x, sentence2tree false s = Ok (Some x) -> r = Some x) /\ (r = None -> forall b x q, reads true b (str s) q -> ~ denotes b x) /\ (forall x, r = Some x -> exists b q, reads false b (str s) q /\ denotes b x).
Proof.
  unfold sentence2tree. destruct (build _ _) as [[x [|c q]]|] eqn:E; eexists; (split; [reflexivity|]); repeat split; try congruence; try (intros; discriminate).
  - intros y [= <-]. destruct (sound E) as (b & R & D). eauto.
  - intros y [= <-]. destruct (sound E) as (b & R & D). eauto.
  - intros _ b x q R D. rewrite (complete R D) in E by (rewrite len_str; lia). discriminate.
Qed.
(** ** files *)
Lemma match_id_ok l i : id_line l i -> match_id l = Some i.
Proof.
  intros (r & E & F & S). unfold match_id. rewrite E. change (str "ID=" ++ ?x) with ("I"%char :: "D"%char :: "="%char :: x). rewrite !lit_ok. destruct F as [N F]. rewrite plus_app; auto.
  - now rewrite string_of_list_ascii_of_string.
  - now apply field_all.
  - destruct r; cbn in *; auto. unfold nonspace. now rewrite S.
Qed.
Lemma match_id_inv l i : match_id l = Some i -> id_line l i.
Proof.
  unfold match_id. intros H. opt_step H. apply lit_inv in E. opt_step H. apply lit_inv in E0 as ->. opt_step H. apply lit_inv in E0 as ->. opt_step H. inversion H; subst. apply plus_inv in E0 as (-> & N & F & S). exists l1. rewrite list_ascii_of_string_of_list_ascii. split; [exact E|]. split; [split; auto; now apply field_all|]. destruct l1; auto. cbn in S. unfold nonspace in S. now apply negb_false_iff in S.
Qed.
Lemma some_tree s r : sentence2tree false s = Ok r -> exists x, r = Some x. Proof. intros E. destruct (accepted E) as (_ & x & -> & _). eauto. Qed.
Lemma file_true es : Forall entry_ok es -> file_gen true (flat_map lines_of es) = (map result es, None).
Proof.
  induction 1 as [|[[l i] t] es He _ IH]; [reflexivity|]. cbn [flat_map lines_of app map file_gen]. rewrite (match_id_ok He), IH. cbn [result]. destruct (sentence2tree false (strip t)) as [x|]; reflexivity.
Qed.
Lemma file_false es : Forall entry_ok es -> file_gen false (flat_map lines_of es) = (before_failure (map result es), if some_failure (map result es) then Some OtherError else None).
Proof.
  induction 1 as [|[[l i] t] es He _ IH]; [reflexivity|]. cbn [flat_map lines_of app map file_gen]. rewrite (match_id_ok He), IH. cbn [result]. destruct (sentence2tree false (strip t)) as [x|] eqn:E; [|reflexivity]. destruct (some_tree E) as (y & ->). reflexivity.
Qed.
Lemma section_true fs : Forall (Forall entry_ok) fs -> section_gen true (map (flat_map lines_of) fs) = (map result (List.concat fs), None).
Proof. induction 1 as [|es fs He _ IH]; [reflexivity|]. cbn [map section_gen List.concat]. rewrite file_true by auto. rewrite IH, map_app. reflexivity. Qed.
Lemma before_app a b : before_failure (a ++ b) = if some_failure a then before_failure a else before_failure a ++ before_failure b.
Proof. induction a as [|[i [x|]] a IH]; [reflexivity| |reflexivity]. cbn [app before_failure some_failure existsb snd orb]. rewrite IH. fold (some_failure a). destruct (some_failure a); reflexivity. Qed.
Lemma section_false fs : Forall (Forall entry_ok) fs -> section_gen false (map (flat_map lines_of) fs) = (before_failure (map result (List.concat fs)), if some_failure (map result (List.concat fs)) then Some OtherError else None).
Proof.
  induction 1 as [|es fs He _ IH]; [reflexivity|]. cbn [map section_gen List.concat]. rewrite file_false by auto. rewrite map_app, before_app. replace (some_failure (map result es ++ map result (List.concat fs))) with (some_failure (map result es) || some_failure (map result (List.concat fs))) by (symmetry; apply existsb_app).
  destruct (some_failure (map result es)) eqn:Es; [reflexivity|]. rewrite IH. reflexivity.
Qed.
Lemma strip_spec s : exists a b, str s = a ++ str (strip s) ++ b /\ opt_ws a /\ opt_ws b /\ no_lead (str (strip s)) /\ no_lead (rev (str (strip s))).
Proof.
  unfold strip. rewrite list_ascii_of_string_of_list_ascii. destruct (skip_inv (str s)) as (a & A & Ea & La). set (u := skip_spaces (str s)) in *. destruct (skip_inv (rev u)) as (b & B & Eb & Lb). set (v := skip_spaces (rev u)) in *.
  assert (Eu : u = rev v ++ rev b) by (rewrite <- rev_app_distr, <- Eb, rev_involutive; reflexivity). exists a, (rev b). rewrite <- Eu. repeat split; auto.
  - now apply Forall_rev.
  - rewrite Eu in La. destruct (rev v); cbn in *; auto.
  - now rewrite rev_involutive.
Qed.
Lemma batch_ok tk sup l : sentences2trees tk sup l = match l with [] => Ok [] | _ => if tk then Err ValueError else mapM (sentence2tree sup) l end.
Proof. unfold sentences2trees. destruct tk, l; reflexivity. Qed.
Lemma lax : exists s x, (forall b, ~ derivation s b) /\ sentence2tree false s = Ok (Some x).
Proof.
  exists "(<T NP 0 7> (<L NP NN NN word NP>) )X"%string. eexists. split; [|vm_compute; reflexivity]. intros b R. unfold derivation in R.
  remember (str "(<T NP 0 7> (<L NP NN NN word NP>) )X") as s eqn:Es. remember (@nil ascii) as q eqn:Eq.
  destruct R as [w1 w2 w3 w4 w5 w6 cat mp op word pa r|w1 w2 w3 w4 cat h n bs s c r ? ? ? ? ? ? ? L Lc Cr W].
  - discriminate.
  - subst r. assert (G : forall bs s r, reads_list true bs s r -> exists p, s = p ++ r).
    { assert (G0 : forall b s r, reads true b s r -> exists p, s = p ++ r).
      { fix IH 4. intros b s0 r R. destruct R as [v1 v2 v3 v4 v5 v6 cat1 mp op word pa r|v1 v2 v3 v4 cat1 h1 n1 bs1 s1 c1 r ? ? ? ? ? ? ? L1].
        - exists (str "(<L" ++ v1 ++ cat1 ++ v2 ++ mp ++ v3 ++ op ++ v4 ++ word ++ v5 ++ pa ++ str ">)" ++ v6). rewrite <- !app_assoc. reflexivity.
        - assert (Q : exists p, s1 = p ++ ")"%char :: c1 ++ r). { clear -IH L1. induction L1 as [s|b bs s s' r' Hb L IHL]; [exists []; reflexivity|]. destruct (IH _ _ _ Hb) as (p & ->). destruct IHL as (p' & ->). exists (p ++ p'). now rewrite <- app_assoc. }
          destruct Q as (p & ->). exists (str "(<T" ++ v1 ++ cat1 ++ v2 ++ ((if h1 then "1" else "0")%char :: v3 ++ n1 ++ str ">" ++ v4 ++ p ++ ")"%char :: c1)). rewrite <- !app_assoc, <- app_comm_cons, <- !app_assoc, <- app_comm_cons. reflexivity. }
      induction 1 as [s0|b bs0 s0 s' r' Hb L0 IHL]; [exists []; reflexivity|]. destruct (G0 _ _ _ Hb) as (p & ->). destruct IHL as (p' & ->). exists (p ++ p'). now rewrite <- app_assoc. }
    destruct (G _ _ _ L) as (p & Ep). clear G L. rewrite app_nil_r in Ep. subst s.
    match type of Es with str "(<T" ++ w1 ++ cat ++ w2 ++ ?h0 :: w3 ++ n ++ str ">" ++ w4 ++ p ++ ?t = _ => assert (Z : exists A, A ++ t = str "(<T NP 0 7> (<L NP NN NN word NP>) )X") end.
    { exists (str "(<T" ++ w1 ++ cat ++ w2 ++ (if h then "1" else "0")%char :: w3 ++ n ++ str ">" ++ w4 ++ p). rewrite <- Es. rewrite <- !app_assoc. rewrite <- app_comm_cons. rewrite <- !app_assoc. reflexivity. }
    destruct Z as (A & Z). clear Es. destruct c as [|x [|? ?]]; [| |cbn in Lc; lia].
    + apply (f_equal (fun l => last l "a"%char)) in Z. rewrite last_last in Z. discriminate.
    + specialize (W eq_refl). inversion W as [|? ? Wx _]; subst. change [")"%char; x] with ([")"%char] ++ [x]) in Z. rewrite app_assoc in Z. apply (f_equal (fun l => last l "a"%char)) in Z. rewrite last_last in Z. cbn in Z. subst x. discriminate.
Qed.
Lemma file_cut es l i : Forall entry_ok es -> id_line l i -> file_gen true (flat_map lines_of es ++ [l]) = (map result es, Some OtherError).
Proof.
  intros F Hl. induction F as [|[[l' i'] t] es He _ IH].
  - cbn [flat_map app map file_gen]. now rewrite (match_id_ok Hl).
  - cbn [flat_map lines_of app map file_gen]. rewrite (match_id_ok He), IH. cbn [result]. destruct (sentence2tree false (strip t)) as [x|]; reflexivity.
Qed.
Lemma file_stray es es' l : Forall entry_ok es -> Forall entry_ok es' -> (forall i, ~ id_line l i) ->
  file_gen true (flat_map lines_of es ++ l :: flat_map lines_of es') = (map result (es ++ es'), None) /\
  file_gen false (flat_map lines_of es ++ l :: flat_map lines_of es') = (before_failure (map result es), Some OtherError).
Proof.
  intros F F' N. assert (M : match_id l = None). { destruct (match_id l) as [i|] eqn:E; [|reflexivity]. apply match_id_inv in E. destruct (N i E). }
  induction F as [|[[l' i'] t] es He _ [IH1 IH2]].
  - cbn [flat_map app map file_gen]. rewrite M. rewrite (file_true F'). split; reflexivity.
  - cbn [flat_map lines_of app map file_gen]. rewrite (match_id_ok He), IH1, IH2. cbn [result]. split; [destruct (sentence2tree false (strip t)) as [x|]; reflexivity|].
    destruct (sentence2tree false (strip t)) as [x|] eqn:E; [|reflexivity]. destruct (some_tree E) as (y & ->). reflexivity.
Qed.
Lemma classes c : let n := nat_of_ascii c in
  (is_digit c = true <-> 48 <= n <= 57) /\ (is_lower c = true <-> 97 <= n <= 122) /\ (is_space c = true <-> 9 <= n <= 13 \/ 28 <= n <= 32 \/ n = 133 \/ n = 160).
Proof.
  cbv zeta. unfold is_digit, is_lower, is_space. cbv zeta. set (n := nat_of_ascii c). clearbody n. rewrite !orb_true_iff, !andb_true_iff, !Nat.leb_le, !Nat.eqb_eq. repeat split; intros; lia.
Qed.
