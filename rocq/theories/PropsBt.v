(** C86: from Bobcat's parses to CCG trees and diagrams. *)
From Coq Require Import Ascii.
From Verif Require Import PyBase CCGModel CCGSpec CCGMoreFacts CCGWide.
From Verif Require Import TyModel DiagModel DiagSpec BobModel BobSpec BobFacts ChModel ChSpec ChCell ChChart ChFinal BtModel BtSpec BtFacts.
Open Scope string_scope. Open Scope list_scope. Open Scope nat_scope.

(** Every parse becomes a CCG tree of the same shape, with the same rules, the types of its categories and exactly the words of the sentence; the conversion never fails. *)
Theorem C86_tree : forall S ltb add ninf ha hs is_same order eisner pl pr tbl cats changes raises roots rid missing_cat missing_span unset weigh b max_trees,
  @bobcat S ltb add ninf ha hs is_same order pl pr cats changes raises b -> let eqc := c_equals ha hs in
  forall st ws ts t, ChModel.parse ltb add ninf eqc is_same (bob_lexical cats) (fun l r => combine order l r eisner pl pr tbl) (bob_change eqc changes) (bob_raise eqc raises) roots rid missing_cat missing_span unset weigh b max_trees st = Ok (ws, ts) ->
    List.length (tags st) = List.length (words st) -> (forall tg, In tg (tags st) -> tg <> []) -> In t ts ->
    build_ccgtree (t_node t) = Ok (image t) /\ map t_text (leaves (image t)) = words st.
Proof. intros. destruct (bt_ok H H0 H1 H2 H3) as (O & W). split; [exact (build_image (bc_cats H) (bc_changes H) (fun p d Hp => proj2 (bc_raises H Hp) d) O)|]. rewrite image_leaves. exact W. Qed.
Print Assumptions C86_tree.
(** A parse that only changes types above heads and absorbs punctuation has a diagram: from nothing to the type of the sentence, with one word box for every word that is not absorbed, in order. *)
Theorem C86_diagram : forall S ltb add ninf ha hs is_same order eisner pl pr tbl cats changes raises roots rid missing_cat missing_span unset weigh b max_trees,
  @bobcat S ltb add ninf ha hs is_same order pl pr cats changes raises b -> raising_table raises -> let eqc := c_equals ha hs in
  forall st ws ts t collapse, ChModel.parse ltb add ninf eqc is_same (bob_lexical cats) (fun l r => combine order l r eisner pl pr tbl) (bob_change eqc changes) (bob_raise eqc raises) roots rid missing_cat missing_span unset weigh b max_trees st = Ok (ws, ts) ->
    List.length (tags st) = List.length (words st) -> (forall tg, In tg (tags st) -> tg <> []) -> In t ts -> regular t ->
    exists d, (do y <- build_ccgtree (t_node t); tree_to_diagram false collapse y) = Ok d /\
      typed d [] (to_grammar (if collapse then rename np_to_n (cat_type (t_cat t)) else cat_type (t_cat t))) /\ word_names d = spoken t.
Proof.
  intros. destruct (bt_ok H H1 H2 H3 H4) as (O & W). assert (PR : forall p d, In p raises -> In d (snd p) -> BobSpec.proper d) by (intros p d Hp; exact (proj2 (bc_raises H Hp) d)). rewrite (build_image (bc_cats H) (bc_changes H) PR O). cbn [bind].
  assert (PT : parse_tree (image t)). { split; [exact (proj1 (image_takes (bc_cats H) (bc_changes H) PR (fun p Hp => proj1 (bc_raises H Hp)) H0 O H5))|exact (image_proper (bc_cats H) (bc_changes H) PR O)]. }
  destruct (parse_tree_diagram collapse PT) as (d & E & T & N). exists d. split; [exact E|]. rewrite image_type in T. split; [exact T|]. rewrite N. exact (image_sentence O).
Qed.
Print Assumptions C86_diagram.
Example C86_example : (forall b, 1 <= b -> bobcat zlt zadd None (fun _ _ => 0%Z) (fun _ _ _ => 0%Z) ex_same same_order none none bt_cats bt_changes bt_raises b) /\ raising_table bt_raises /\
  exists t ts, bt_parse = Ok (["big"; "dogs"; "run"; "."], t :: ts) /\ regular t /\
    rmap (fun d => (word_names d, cod d)) (do y <- build_ccgtree (t_node t); tree_to_diagram false true y) = Ok (["big"; "dogs"; "run"], [("s", 0%Z)]).
Proof.
  split; [|split].
  - intros b B. constructor; auto; try (intros; contradiction); try reflexivity.
    + apply zlt_order.
    + apply zadd_ok.
    + intros [a|]; reflexivity.
    + intro t. apply equals_refl.
    + intros p Hp. cbn in Hp. repeat (destruct Hp as [<-|Hp]; [cbn; prp|]). contradiction.
    + intros p d [<-|[]] [<-|[]]. unfold bt_np. prp.
    + intros p [<-|[]]. split; [unfold bt_np; cbn; prp|]. intros d [<-|[]]. unfold bt_tr. prp.
  - intros p d [<-|[]] [<-|[]]. exists (KA AS). left. reflexivity.
  - let r := eval vm_compute in bt_parse in match r with Ok (_, ?t :: ?ts) => exists t, ts end.
    split; [vm_compute; reflexivity|]. split; [|vm_compute; reflexivity].
    apply rg_rule; [cbn; tauto| |].
    + apply rg_change; [reflexivity|intros (a & f & v & rel & E & I); cbn in E; injection E as <- <- <- <-; cbn in I; intuition discriminate| | |].
      * apply hd_fa; [reflexivity|]. apply hd_leaf.
      * intros (r & d & x & r1 & d1 & x1 & E & _). vm_compute in E. discriminate.
      * apply rg_rule; [cbn; tauto| |]; (apply rg_leaf; [discriminate|]); intros (a & f & v & rel & E & I); cbn in E; [discriminate|]. injection E as <- <- <- <-; cbn in I; intuition discriminate.
    + apply rg_rp; [reflexivity| |reflexivity|].
      * do 4 eexists. split; [reflexivity|]. do 4 eexists. split; [reflexivity|]. cbn; tauto.
      * apply rg_leaf; [discriminate|]. intros (a & f & v & rel & E & I); discriminate.
Qed.
