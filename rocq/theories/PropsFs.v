(** C83: weights are put in the place of the symbols. *)
From Coq Require Import QArith.
From Verif Require Import PyBase LamModel LamSpec FsModel FsSpec FsFacts.
Close Scope Q_scope. Open Scope string_scope. Set Implicit Arguments. Unset Strict Implicit.

(** Every box of every diagram, however nested and shared, ends up with the weight at the position of its symbol, times the scale. *)
Theorem C83_fast_subs V (smul : Q -> V -> V) (h : heap V) symbols ws ds :
  (forall q x, (q == 1)%Q -> smul q x = x) -> plain symbols -> List.length ws = List.length symbols -> built h -> in_heap h ds ->
  (forall d r e, In d ds -> In r d -> core h r e -> known symbols e) ->
  exists h', fast_subs smul symbols ws h ds = Ok h' /\ same_boxes h h' /\ forall d r, In d ds -> In r d -> exists e e', core h r e /\ core h' r e' /\ subst smul symbols ws e e'.
Proof. intros. apply fast_subs_ok; auto. now apply in_heap_F. Qed.
Print Assumptions C83_fast_subs.
(** A symbol that the model does not have is reported as KeyError, wherever it is. *)
Theorem C83_unknown V (smul : Q -> V -> V) (h : heap V) symbols ws ds :
  (forall q x, (q == 1)%Q -> smul q x = x) -> plain symbols -> List.length ws = List.length symbols -> built h -> in_heap h ds ->
  (exists d r e s, In d ds /\ In r d /\ core h r e /\ In s (free_syms e) /\ ~ In s symbols) -> fast_subs smul symbols ws h ds = Err KeyError.
Proof. intros. apply fast_subs_unknown; auto. now apply in_heap_F. Qed.
Print Assumptions C83_unknown.
(** [from_diagrams]: the symbols of the model are those that occur, each once, in the order of their names. *)
Theorem C83_model_symbols V (h : heap V) ds : built h -> in_heap h ds -> let sy := model_symbols (map (diagram_free h) ds) in
  plain sy /\ by_name sy /\ forall s, In s sy <-> exists d r e, In d ds /\ In r d /\ core h r e /\ In s (free_syms e).
Proof. apply model_known. Qed.
Print Assumptions C83_model_symbols.
(** A model made from diagrams evaluates any selection of them. *)
Theorem C83_from_diagrams V (smul : Q -> V -> V) (h : heap V) ws ds es :
  (forall q x, (q == 1)%Q -> smul q x = x) -> built h -> in_heap h ds -> incl es ds ->
  let sy := model_symbols (map (diagram_free h) ds) in List.length ws = List.length sy ->
  exists h', fast_subs smul sy ws h es = Ok h' /\ same_boxes h h' /\ forall d r, In d es -> In r d -> exists e e', core h r e /\ core h' r e' /\ subst smul sy ws e e'.
Proof.
  intros U B I S sy L. destruct (model_known B I) as (P & _ & M). fold sy in P, M. apply C83_fast_subs; auto; [intros d r Hd; apply I; auto|].
  intros d r e Hd Hr C s Hs. apply M. exists d, r, e. auto.
Qed.
Print Assumptions C83_from_diagrams.
(** PytorchModel: the same when no symbol is scaled. *)
Theorem C83_torch V (h : heap V) symbols ws ds :
  plain symbols -> List.length ws = List.length symbols -> built h -> in_heap h ds -> (forall d r s, In d ds -> In r d -> core h r (DSym s) -> s_scale s = 1%Q) ->
  (forall d r e, In d ds -> In r d -> core h r e -> known symbols e) ->
  exists h', torch_subs symbols ws h ds = Ok h' /\ same_boxes h h' /\ forall d r, In d ds -> In r d -> exists e e', core h r e /\ core h' r e' /\ subst (fun _ x => x) symbols ws e e'.
Proof. intros P L B I F K. eapply torch_subs_ok; eauto; [now apply in_heap_F|now apply flat_all]. Qed.
Print Assumptions C83_torch.
Theorem C83_torch_unknown V (h : heap V) symbols ws ds :
  plain symbols -> List.length ws = List.length symbols -> built h -> in_heap h ds -> (forall d r s, In d ds -> In r d -> core h r (DSym s) -> s_scale s = 1%Q) ->
  (exists d r e s, In d ds /\ In r d /\ core h r e /\ In s (free_syms e) /\ ~ In s symbols) -> torch_subs symbols ws h ds = Err KeyError.
Proof. intros P L B I F K. eapply (@torch_subs_unknown V (fun _ x => x)); eauto; [now apply in_heap_F|now apply flat_all]. Qed.
Print Assumptions C83_torch_unknown.
(** ... a scaled symbol is looked up with its scale, so a model made from the diagram itself does not find it. *)
Theorem C83_torch_scaled_refuted : exists (h : heap Q) ds, built h /\ in_heap h ds /\
  let sy := model_symbols (map (diagram_free h) ds) in forall ws, List.length ws = List.length sy -> torch_subs sy ws h ds = Err KeyError.
Proof.
  exists [Obj KBox (DSym (Sym "a" 1 1 2%Q)) None], [[0]]. split; [|split].
  - intros r L. destruct r as [|r]; cbn in *; [|lia]. auto.
  - intros d r [<-|[]] [<-|[]]. cbn. lia.
  - intros sy ws L. vm_compute in sy. subst sy. destruct ws as [|w [|]]; try discriminate. reflexivity.
Qed.
Print Assumptions C83_torch_scaled_refuted.
(** ... and the boxes around a controlled box keep showing the symbol: their [data] and [free_symbols] are not updated. *)
Theorem C83_stale_refuted : exists (h h' : heap Q) sy ws ds, built h /\ in_heap h ds /\ fast_subs Qmult sy ws h ds = Ok h' /\
  exists r s, In r (List.concat ds) /\ o_data (geto h' r) = DSym s /\ fst (free_of h' r) = [s] /\ core h' r (DVal 7%Q).
Proof.
  set (s := Sym "a" 1 1 1%Q). exists [Obj KBox (DSym s) None; Obj (KCtl 0) (DSym s) None]. eexists. exists [s], [7%Q], [[1]].
  split; [|split; [|split; [vm_compute; reflexivity|]]].
  - intros r L. destruct r as [|[|r]]; cbn in *; [auto| |lia]. split; [split; [lia|auto]|auto].
  - intros d r [<-|[]] [<-|[]]. cbn. lia.
  - exists 1, s. split; [now left|]. split; [reflexivity|]. split; [reflexivity|]. apply core_in with (r' := 0); [left; reflexivity|]. apply core_box. reflexivity.
Qed.
Print Assumptions C83_stale_refuted.

(** a rotation shared by a doubly controlled box, a daggered box and the diagram itself, in two diagrams *)
Example C83_case : let a := Sym "a" 1 1 (1 # 2)%Q in let b := Sym "b" 1 1 1%Q in
  let h := [Obj KBox (DSym a) None; Obj (KCtl 0) (DSym a) None; Obj (KCtl 1) (DSym a) (Some [unscaled a]); Obj (KDag 0) (DSym a) None; Obj KBox (DSym b) None; Obj KBox (DVal 5%Q) None; Obj (KCtl 3) (DSym a) None] in
  let ds := [[2; 5; 3]; [4; 0; 6]] in
  let sy := model_symbols (map (diagram_free h) ds) in
  built h /\ in_heap h ds /\ sy = [unscaled a; b] /\
  exists h', fast_subs Qmult sy [6%Q; 9%Q] h ds = Ok h' /\ map (fun o => o_data o) h' = [DVal ((1 # 2) * 6)%Q; DSym a; DSym a; DVal ((1 # 2) * 6)%Q; DVal 9%Q; DVal 5%Q; DSym a].
Proof.
  cbv zeta. split; [|split; [|split; [reflexivity|eexists; split; [vm_compute; reflexivity|reflexivity]]]].
  - intros r L. do 7 (destruct r as [|r]; [cbn; repeat split; auto; lia|]). cbn in L. lia.
  - intros d r Hd Hr. cbn in *. destruct Hd as [<-|[<-|[]]]; cbn in Hr; lia.
Qed.
