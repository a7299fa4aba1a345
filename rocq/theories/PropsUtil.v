(** Property theorems C19 (normalise_duration), C20 (numerical backend stack). *)
From Coq Require Import QArith Lqa.
From Verif Require Import PyBase UtilModel UtilFacts.
Local Open Scope Q_scope.

(** ** C19 *)
(** Seconds are allowed to reach 60 here; that they can is C19_sixty_seconds_refuted. *)
Theorem C19_faithful_partial : forall q, 0 <= q ->
  Forall tok_in_range (normalise_duration q) /\
  denotes (normalise_duration q) - q <= 1 # 2 /\ q - denotes (normalise_duration q) <= 1 # 2 /\
  (q < 60 -> denotes (normalise_duration q) - q <= 1 # 200 /\ q - denotes (normalise_duration q) <= 1 # 200).
Proof. exact normalise_spec. Qed.
Print Assumptions C19_faithful_partial.

Theorem C19_sixty_seconds_refuted :
  normalise_duration (1197 # 10) = [Minutes 1; Secs 60] /\ normalise_duration (59996 # 1000) = [Cents 6000].
Proof. split; reflexivity. Qed.
Print Assumptions C19_sixty_seconds_refuted.

Example C19_nonvacuous : normalise_duration (4890 # 1) = [Hours 1; Minutes 21; Secs 30]
  /\ normalise_duration (29182375 # 100000000) = [Cents 29].
Proof. split; reflexivity. Qed.

(** ** C20 *)
(** Leaving a block, normally or by an exception, whatever happens inside, restores the stack. *)
Theorem C20_with_restores : forall load name body st,
  let '(_, st', _) := exec load (With name body) st in stack st' = stack st.
Proof. exact exec_with. Qed.
Print Assumptions C20_with_restores.

(** Any client code, including set_backend, changes at most the innermost level. *)
Theorem C20_only_innermost : forall load p st, stack st <> [] ->
  let '(_, st', _) := exec load p st in
  List.length (stack st) = List.length (stack st') /\ tl (stack st) = tl (stack st').
Proof. exact exec_stack. Qed.
Print Assumptions C20_only_innermost.

(** get_backend directly inside a block returns the requested backend. *)
Theorem C20_current_inside : forall load n body st, n <> ""%string -> (In n (cache st) \/ load n = Ok tt) ->
  exists r st' t, exec load (With (Some n) (Seq Get body)) st = (r, st', Ok n :: t).
Proof.
  intros load n body st NE A. rewrite (exec_with_current body NE A).
  destruct (exec load body _) as [[r st'] t]. exists r, (leave st'), t. reflexivity.
Qed.
Print Assumptions C20_current_inside.

Theorem C20_failed_import : forall load n body st e, n <> ""%string -> ~ In n (cache st) -> load n = Err e ->
  exec load (With (Some n) body) st = (Err e, st, []).
Proof. exact exec_failed_import. Qed.
Print Assumptions C20_failed_import.

Theorem C20_set_backend : forall load n st, stack st <> [] ->
  stack (set_top n st) = n :: tl (stack st) /\
  (In n (cache st) \/ load n = Ok tt -> fst (get_backend load (set_top n st)) = Ok n).
Proof. exact set_backend_top. Qed.
Print Assumptions C20_set_backend.

Example C20_nonvacuous :
  exec (fun n => if String.eqb n "jax"%string then Err OtherError else Ok tt)
    (Seq (With (Some "pytorch") (Seq Get (Seq (SetBackend "tensorflow") (Seq Get (Try (With (Some "jax") Get))))))
         Get)%string (BS ["numpy"]%string [])
  = (Ok tt, BS ["numpy"] ["numpy"; "tensorflow"; "pytorch"], [Ok "pytorch"; Ok "tensorflow"; Ok "numpy"])%string.
Proof. reflexivity. Qed.
