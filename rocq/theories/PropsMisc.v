(** C70, C72, C73. *)
From Coq Require Import Ascii.
From Verif Require Import PyBase TyModel RewModel MiscModel MiscSpec MiscFacts.
Set Implicit Arguments. Unset Strict Implicit.

(** ** C70: coreference map *)

(** [corefs[m] == r] exactly if [r] is the first mention of the first cluster that contains [m] *)
Theorem C70_lookup : forall corefs m r, d_get mention_eqb m (dict_from_corefs corefs) = Some r <->
  exists pre c post, corefs = pre ++ c :: post /\ mentions c m /\ (forall p, In p pre -> ~ mentions p m) /\ first_mention c r.
Proof. exact dict_get. Qed.
Print Assumptions C70_lookup.
Theorem C70_total : forall corefs c m, In c corefs -> mentions c m -> exists r, d_get mention_eqb m (dict_from_corefs corefs) = Some r.
Proof. exact dict_some. Qed.
Print Assumptions C70_total.
Theorem C70_representative : forall corefs pre c post r, corefs = pre ++ c :: post -> first_mention c r ->
  (forall p, In p pre -> ~ mentions p r) -> d_get mention_eqb r (dict_from_corefs corefs) = Some r.
Proof. exact dict_rep. Qed.
Print Assumptions C70_representative.
Theorem C70_keys_distinct : forall corefs, NoDup (map fst (dict_from_corefs corefs)).
Proof. exact dict_nodup. Qed.
Print Assumptions C70_keys_distinct.
(** With overlapping clusters the map is not idempotent: following it twice leads elsewhere than following it once. *)
Theorem C70_idempotent_refuted : exists corefs m r s, d_get mention_eqb m (dict_from_corefs corefs) = Some r /\
  d_get mention_eqb r (dict_from_corefs corefs) = Some s /\ r <> s.
Proof. exists [[[0]; [1]]; [[]; [1; 2]]], (1, 2), (1, 1), (0, 0). vm_compute. repeat split. discriminate. Qed.
Print Assumptions C70_idempotent_refuted.
Example C70_instance :
  let c1 := [[]; [3]; [0]] in let c2 := [[]; []; [5; 0]] in
  mentions c2 (2, 0) /\ first_mention c1 (1, 3) /\ first_mention c2 (2, 5) /\
  map (fun m => d_get mention_eqb m (dict_from_corefs [c1; c2])) [(2, 0); (2, 5); (1, 3); (0, 0)] = [Some (1, 3); Some (2, 5); Some (1, 3); None].
Proof.
  cbn zeta. split; [exists [5; 0]; cbn; auto|]. split; [exists []; split; auto; intros [|k] L; cbn in *; auto; lia|].
  split; [exists [0]; split; auto; intros [|[|k]] L; cbn in *; auto; lia|vm_compute; reflexivity].
Qed.

(** ** C72: types from strings *)
Theorem C72_str_to_type : forall n z, ~ has_dot n -> str_to_type (ty_str [(n, z)]) = [(n, z)].
Proof. intros n z. exact (@str_to_type_str (n, z)). Qed.
Print Assumptions C72_str_to_type.
(** The hypothesis is needed. *)
Theorem C72_dotted_refuted : exists n, str_to_type (ty_str [(n, 0%Z)]) = [("a"%string, 1%Z)] /\ n <> "a"%string.
Proof. exists "a.r"%string. split; [reflexivity|discriminate]. Qed.
Print Assumptions C72_dotted_refuted.
Example C72_instance : ~ has_dot "n" /\ ty_str [("n"%string, (-2)%Z)] = "n.l.l"%string /\ str_to_type "n.l.l" = [("n"%string, (-2)%Z)].
Proof. split; [intros [|[]]; discriminate|]. split; reflexivity. Qed.

(** ** C73: post-selection *)

(** For a table of bit strings of one length and a post-selection within that length: one entry for each string that agrees with
    every post-selected bit, with the count unchanged and the key made of the other bits; no two of them share a key. *)
Theorem C73_post_select : forall V n ps (counts : list (list nat * V)),
  (forall i v, In (i, v) ps -> i < n) -> (forall b c, In (b, c) counts -> List.length b = n) -> NoDup (map fst counts) ->
  exists r, post_select counts ps = Ok r /\ NoDup (map fst r) /\ survivors ps counts r.
Proof. exact post_select_ok. Qed.
Print Assumptions C73_post_select.
(** no count is lost *)
Theorem C73_total : forall n ps (counts r : list (list nat * Z)) f,
  (forall i v, In (i, v) ps -> i < n) -> (forall b c, In (b, c) counts -> List.length b = n) -> NoDup (map fst counts) ->
  post_select counts ps = Ok r -> (forall b, f b = true <-> agree b ps) ->
  fold_right Z.add 0%Z (map snd r) = fold_right Z.add 0%Z (map snd (filter (fun p => f (fst p)) counts)).
Proof.
  intros n ps counts r f B L N E F. destruct (@post_select_ok _ n ps counts B L N) as (r' & E' & _ & S'). rewrite E in E'. injection E' as <-. exact (survivors_sum S' F).
Qed.
Print Assumptions C73_total.
(** [get_counts] with normalisation, post-selection and scaling: each circuit is treated with its own post-selection and scalar *)
Theorem C73_get_counts : forall V mul norm (cs : list (list (list nat * V) * list (nat * nat) * V)),
  (forall c ps s, In (c, ps, s) cs -> exists n, (forall i v, In (i, v) ps -> i < n) /\ (forall b x, In (b, x) (norm c) -> List.length b = n) /\ NoDup (map fst (norm c))) ->
  exists rs, get_counts mul true true true norm cs = Ok rs /\
    Forall2 (fun x r => exists q, survivors (snd (fst x)) (norm (fst (fst x))) q /\ NoDup (map fst q) /\ r = map (fun p => (fst p, mul (snd p) (snd x))) q) cs rs.
Proof. exact get_counts_ok. Qed.
Print Assumptions C73_get_counts.
(** Renaming classical bits moves the post-selection along, for any renaming that does not merge post-selected bits (swaps and cycles included). *)
Theorem C73_rename : forall ps ren, NoDup (map fst ps) -> NoDup (map fst ren) ->
  (forall b b' c, In b (map fst ps) -> In b' (map fst ps) -> renamed ren b c -> renamed ren b' c -> b = b') ->
  exists r, rename_post_selection ps ren = Ok r /\ NoDup (map fst r) /\ forall c v, In (c, v) r <-> exists b, In (b, v) ps /\ renamed ren b c.
Proof. exact rename_ok. Qed.
Print Assumptions C73_rename.
Example C73_instance :
  let counts := [([0; 0; 1], 5%Z); ([0; 1; 1], 7%Z); ([1; 0; 1], 2%Z); ([1; 1; 0], 3%Z)] in let ps := [(2, 1); (0, 0)] in
  (forall i v, In (i, v) ps -> i < 3) /\ (forall b c, In (b, c) counts -> List.length b = 3) /\ NoDup (map fst counts) /\
  post_select counts ps = Ok [([0], 5%Z); ([1], 7%Z)] /\
  rename_post_selection [(0, 1); (1, 0); (5, 1)] [(0, 1); (1, 0); (3, 4)] = Ok [(5, 1); (1, 1); (0, 0)].
Proof.
  cbn zeta. split; [intros i v [[= <- <-]|[[= <- <-]|[]]]; lia|]. split; [intros b c [[= <- <-]|[[= <- <-]|[[= <- <-]|[[= <- <-]|[]]]]]; reflexivity|].
  split; [|vm_compute; split; reflexivity]. cbn. repeat constructor; cbn; intros H; decompose [or] H; try tauto; discriminate.
Qed.
