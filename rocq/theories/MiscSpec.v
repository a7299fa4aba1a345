(** Specification vocabulary for MiscModel.v. *)
From Coq Require Import Ascii.
From Verif Require Import PyBase.
Set Implicit Arguments. Unset Strict Implicit.

(** a cluster holds, for each sentence, the list of tokens that mention the entity *)
Definition mentions (c : list (list nat)) (m : nat * nat) : Prop := exists ts, nth_error c (fst m) = Some ts /\ In (snd m) ts.
(** the first mention: no earlier sentence has one, and it heads the list of its sentence *)
Definition first_mention (c : list (list nat)) (m : nat * nat) : Prop :=
  exists r, nth_error c (fst m) = Some (snd m :: r) /\ forall k, k < fst m -> nth_error c k = Some [].

Fixpoint has_dot (s : string) : Prop := match s with EmptyString => False | String c s' => c = "."%char \/ has_dot s' end.

(** a bit string agrees with a post-selection *)
Definition agree (b : list nat) (ps : list (nat * nat)) : Prop := forall i v, In (i, v) ps -> nth_error b i = Some v.
(** what is left of a bit string: its entries at the indices that are not post-selected, in order *)
Definition remaining (b : list nat) (ps : list (nat * nat)) : list nat :=
  map (fun i => nth i b 0) (filter (fun i => negb (existsb (Nat.eqb i) (map fst ps))) (seq 0 (List.length b))).
(** [survivors ps counts r]: [r] has, in order, one entry for each entry of [counts] that agrees, and no other *)
Inductive survivors V (ps : list (nat * nat)) : list (list nat * V) -> list (list nat * V) -> Prop :=
| sv_nil : survivors ps [] []
| sv_keep b c l r : agree b ps -> survivors ps l r -> survivors ps ((b, c) :: l) ((remaining b ps, c) :: r)
| sv_drop b c l r : ~ agree b ps -> survivors ps l r -> survivors ps ((b, c) :: l) r.
(** the new name of a bit *)
Definition renamed (ren : list (nat * nat)) (b c : nat) : Prop := In (b, c) ren \/ (c = b /\ ~ In b (map fst ren)).
