(** C38-C39: splitting large tensors; directed dimensions. *)
From Verif Require Import PyBase TyModel TyFacts DiagModel DiagSpec DiagFacts DiagKinds BoxEq FunctorModel RewModel AnsatzModel AnsatzNameModel SplitModel SplitSpec SplitFacts.
Close Scope string_scope. Set Implicit Arguments. Unset Strict Implicit.

(** ** C38 *)
(** Every well-formed frame-free diagram is split into a diagram with the same interface in which every tensor that is not wiring (cup, cap, swap, spider)
    has at most [max_order] legs; two levels of the recursion through uncurrying suffice. *)
Theorem C38_split : forall k order left fuel d, match k with MPS => 3 <= order | SpiderK => 2 <= order end ->
  wf d -> All (fun x => frameless (l_box x)) (layers d) ->
  exists e, split_diag k order left (2 + fuel) d = Ok e /\ typed e (dom d) (cod d) /\ order_le order e.
Proof. intros k order left fuel d H. exact (@split_ok k order left H fuel d). Qed.
Print Assumptions C38_split.
(** The same for one box or word. *)
Theorem C38_box : forall k order left fuel b, match k with MPS => 3 <= order | SpiderK => 2 <= order end ->
  match b with Box _ _ _ z | Word _ _ z => z = 0%Z | _ => False end ->
  exists e, split_ar k order left (2 + fuel) b = Ok e /\ typed e (b_dom b) (b_cod b) /\ order_le order e.
Proof. intros k order left fuel b H. exact (@ar_keeps k order left H fuel b). Qed.
Print Assumptions C38_box.
(** The recursion terminates: any larger recursion depth gives the same result. *)
Theorem C38_terminates : forall k order left f g d, wf d -> split_diag k order left (2 + f) d = split_diag k order left (2 + g) d.
Proof. exact split_fuel. Qed.
Print Assumptions C38_terminates.
(** The words of a matrix product state carry consecutive pieces of the codomain, at most [max_order - 2] wires each, joined by bonds;
    the pieces concatenate to the whole codomain. *)
Theorem C38_mps_pieces : forall name c order, 3 <= order -> order < List.length c ->
  exists d s s' cs, mps_split name c order = Ok d /\ c = s ++ List.concat cs ++ s' /\ Forall (fun p => 1 <= List.length p <= order - 2) (s :: cs ++ [s']) /\
    filter (fun b => match b with Word _ _ _ => true | _ => false end) (boxes d) =
      map (fun '(i, t) => Word (part_name name i) t 0) (enum 0 ((s ++ [bond]) :: map (fun p => rot_atom 1 bond :: p ++ [bond]) cs ++ [rot_atom 1 bond :: s'])).
Proof. exact mps_pieces. Qed.
Print Assumptions C38_mps_pieces.
(** Diagrams with frames are refused, as are bad constructor arguments. *)
Theorem C38_frames : forall k order left f d, existsb is_frame (boxes d) = true -> split_diag k order left f d = Err OtherError.
Proof. exact split_frames. Qed.
Print Assumptions C38_frames.
Theorem C38_checks : forall order keys, (mps_check order keys = Ok tt <-> 3 <= order /\ ~ In "B"%string keys) /\ (spider_check order = Ok tt <-> 2 <= order).
Proof. exact checks. Qed.
Print Assumptions C38_checks.
Section Examples.
  Local Open Scope string_scope.
  Let n : atom := ("n", 0%Z). Let s : atom := ("s", 0%Z).
  Let d := to_diag (Box "f" [n; n] [s; n; s; n] 0).
  Example C38_example : wf d /\ All (fun x => frameless (l_box x)) (layers d)
    /\ rmap (fun e => map (fun b => (b_name b, List.length (b_dom b) + List.length (b_cod b))%nat) (boxes e)) (split_diag MPS 4 true 2 d)
       = Ok [("f_0", 3); ("f_1", 4); ("f_2", 3); ("CUP", 2); ("CUP", 2); ("CUP", 2); ("CUP", 2)]
    /\ rmap (fun e => map (fun b => (b_name b, List.length (b_dom b) + List.length (b_cod b))%nat) (boxes e)) (split_diag SpiderK 3 true 2 d)
       = Ok [("f_0", 3); ("f_1", 3); ("f_2", 2); ("SPIDER", 3); ("SPIDER", 3); ("CUP", 2); ("CUP", 2)].
  Proof. repeat split; vm_compute; auto. Qed.
End Examples.

(** ** C39 *)
(** The symbol of a box has as many entries as the box's tensor; the directed domain collects exactly the legs that flow in. *)
Theorem C39_directed : forall ob od b,
  Forall (fun a => ob (fst a) = Ok (od (fst a)) /\ Forall (fun n => 1 <= n) (od (fst a))) (b_dom b ++ b_cod b) ->
  exists dd dc bd bc, tensor_ar ob b = Ok (summarise b, (dd, dc), (bd, bc))
    /\ dd = product (map (fun l => product (od (fst (fst l)))) (filter inflow (legs b)))
    /\ dc = product (map (fun l => product (od (fst (fst l)))) (filter (fun l => negb (inflow l)) (legs b)))
    /\ D_ty ob (b_dom b) = Ok bd /\ D_ty ob (b_cod b) = Ok bc
    /\ dd * dc = product (map (fun l => product (od (fst (fst l)))) (legs b)) /\ dd * dc = product bd * product bc.
Proof. exact directed_ok. Qed.
Print Assumptions C39_directed.
Section Examples39.
  Local Open Scope string_scope.
  Let ob (x : string) := if String.eqb x "n" then Ok [2; 5] else if String.eqb x "s" then Ok [3] else Err KeyError.
  Let b := Box "verb" [("s", 1%Z)] [("n", 1%Z); ("s", 0%Z); ("n", (-1)%Z); ("n", 2%Z)] 0.
  Example C39_example : Forall (fun a => ob (fst a) = Ok ((fun x => if String.eqb x "n" then [2; 5] else [3]) (fst a)) /\ Forall (fun n => 1 <= n) ((fun x => if String.eqb x "n" then [2; 5] else [3]) (fst a))) (b_dom b ++ b_cod b)
    /\ rmap snd (tensor_ar ob b) = Ok ([3], [5; 2; 3; 5; 2; 2; 5]) /\ rmap (fun x => snd (fst x)) (tensor_ar ob b) = Ok (100, 90)
    /\ is_ok (tensor_ar ob (Box "x" [("q", 0%Z)] [] 0)) = false.
  Proof. split; [repeat constructor|]. repeat split; vm_compute; reflexivity. Qed.
End Examples39.
