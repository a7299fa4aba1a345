From Coq Require Import QArith Qround Lqa.
From Verif Require Import PyBase UtilModel.
Set Implicit Arguments. Unset Strict Implicit.
Local Open Scope Q_scope.

(** specification: the duration a list of tokens denotes, and its error bound *)
Definition tok_secs (t : token) : Q :=
  match t with
  | Days n => inject_Z (n * 86400) | Hours n => inject_Z (n * 3600) | Minutes n => inject_Z (n * 60)
  | Secs n => inject_Z n | Cents n => inject_Z n / 100
  end.
Definition denotes (ts : list token) : Q := fold_right (fun t q => tok_secs t + q) 0 ts.
Definition tok_in_range (t : token) : Prop :=
  match t with
  | Days n => 0 < n | Hours n => 0 < n < 24 | Minutes n => 0 < n < 60
  | Secs n => 0 <= n <= 60 | Cents n => 0 <= n <= 6000
  end%Z.

Lemma py_round_bound q : inject_Z (py_round q) - q <= 1 # 2 /\ q - inject_Z (py_round q) <= 1 # 2.
Proof.
  unfold py_round. pose proof (Qfloor_le q) as A. pose proof (Qlt_floor q) as B. rewrite inject_Z_plus in B. change (inject_Z 1) with 1 in B.
  destruct (Qle_bool (1 # 2) (q - inject_Z (Qfloor q))) eqn:E.
  - apply Qle_bool_iff in E. destruct (Qeq_bool (1 # 2) (q - inject_Z (Qfloor q))) eqn:F.
    + apply Qeq_bool_iff in F. destruct (Z.even (Qfloor q)); rewrite ?inject_Z_plus; change (inject_Z 1) with 1; split; lra.
    + rewrite inject_Z_plus; change (inject_Z 1) with 1; split; lra.
  - assert (~ (1 # 2 <= q - inject_Z (Qfloor q))) by (rewrite <- Qle_bool_iff; congruence). split; lra.
Qed.
Lemma div_floor q k : (0 < k)%Z -> 0 <= q ->
  let n := Qfloor (q / inject_Z k) in (0 <= n)%Z /\ 0 <= q - inject_Z (n * k) /\ q - inject_Z (n * k) < inject_Z k.
Proof.
  intros K Q n. assert (Kq : 0 < inject_Z k) by (change 0 with (inject_Z 0); now rewrite <- Zlt_Qlt).
  assert (Kn : ~ inject_Z k == 0) by lra.
  pose proof (Qfloor_le (q / inject_Z k)) as A. pose proof (Qlt_floor (q / inject_Z k)) as B. fold n in A, B.
  rewrite inject_Z_plus in B. change (inject_Z 1) with 1 in B.
  assert (E : q == (q / inject_Z k) * inject_Z k) by (field; auto).
  rewrite inject_Z_mult. split; [|split].
  - assert (0 <= q / inject_Z k) by (apply Qle_shift_div_l; lra).
    assert (L : -(1) < inject_Z n) by lra. change (-(1)) with (inject_Z (-1)) in L. rewrite <- Zlt_Qlt in L. lia.
  - apply (Qmult_le_compat_r _ _ (inject_Z k)) in A; [|lra]. lra.
  - apply (Qmult_lt_compat_r _ _ (inject_Z k)) in B; [|lra]. lra.
Qed.
Lemma py_round_nonneg q : 0 <= q -> (0 <= py_round q)%Z.
Proof.
  intros H. assert (0 <= Qfloor q)%Z. { change 0%Z with (Qfloor 0). now apply Qfloor_resp_le. }
  unfold py_round. destruct (Qle_bool _ _); [destruct (Qeq_bool _ _); [destruct (Z.even _)|]|]; lia.
Qed.
Lemma py_round_le q k : q <= inject_Z k -> (py_round q <= k)%Z.
Proof.
  intro H. destruct (py_round_bound q) as [A _]. assert (L : inject_Z (py_round q) <= inject_Z k + (1#2)) by lra.
  destruct (Z.le_gt_cases (py_round q) k) as [|G]; auto. exfalso.
  assert (inject_Z (k + 1) <= inject_Z (py_round q)) by (rewrite <- Zle_Qle; lia).
  rewrite inject_Z_plus in H0. change (inject_Z 1) with 1 in H0. lra.
Qed.

Lemma small_z_lt (n k : Z) r : inject_Z n * r <= inject_Z k * r -> 0 < r -> (n <= k)%Z.
Proof. intros H R. apply Qmult_le_r in H; auto. now rewrite <- Zle_Qle in H. Qed.

Lemma normalise_spec q : 0 <= q ->
  Forall tok_in_range (normalise_duration q) /\
  denotes (normalise_duration q) - q <= 1 # 2 /\ q - denotes (normalise_duration q) <= 1 # 2 /\
  (q < 60 -> denotes (normalise_duration q) - q <= 1 # 200 /\ q - denotes (normalise_duration q) <= 1 # 200).
Proof.
  intro Hq. unfold normalise_duration.
  destruct (div_floor (q := q) (k := 86400) ltac:(lia) Hq) as (D1 & D2 & D3).
  set (days := Qfloor (q / inject_Z 86400)) in *. set (d1 := q - inject_Z (days * 86400)) in *.
  destruct (div_floor (q := d1) (k := 3600) ltac:(lia) D2) as (H1 & H2 & H3).
  set (hours := Qfloor (d1 / inject_Z 3600)) in *. set (d2 := d1 - inject_Z (hours * 3600)) in *.
  destruct (div_floor (q := d2) (k := 60) ltac:(lia) H2) as (M1 & M2 & M3).
  set (minutes := Qfloor (d2 / inject_Z 60)) in *. set (secs := d2 - inject_Z (minutes * 60)) in *.
  assert (Hh : (hours < 24)%Z).
  { destruct (Z.lt_ge_cases hours 24) as [|G]; auto. exfalso.
    assert (inject_Z (24 * 3600) <= inject_Z (hours * 3600)) by (rewrite <- Zle_Qle; lia).
    change (inject_Z (24 * 3600)) with (inject_Z 86400) in H. unfold d2 in H2. lra. }
  assert (Hm : (minutes < 60)%Z).
  { destruct (Z.lt_ge_cases minutes 60) as [|G]; auto. exfalso.
    assert (inject_Z (60 * 60) <= inject_Z (minutes * 60)) by (rewrite <- Zle_Qle; lia).
    change (inject_Z (60 * 60)) with (inject_Z 3600) in H. unfold secs in M2. lra. }
  destruct (py_round_bound secs) as [R1 R2]. destruct (py_round_bound (secs * inject_Z 100)) as [C1 C2].
  pose proof (py_round_nonneg M2) as S0. assert (S1 : (py_round secs <= 60)%Z) by (apply py_round_le; lra).
  assert (C0 : (0 <= py_round (secs * inject_Z 100))%Z) by (apply py_round_nonneg; change (inject_Z 100) with 100; lra).
  assert (C3 : (py_round (secs * inject_Z 100) <= 6000)%Z).
  { apply py_round_le. change (inject_Z 6000) with 6000. change (inject_Z 100) with 100. change (inject_Z 60) with 60 in M3. lra. }
  assert (Eq : q == inject_Z (days * 86400) + inject_Z (hours * 3600) + inject_Z (minutes * 60) + secs) by (unfold secs, d2, d1; lra).
  change (inject_Z 100) with 100 in C0, C1, C2, C3 |- *.
  clearbody secs days hours minutes. clear D2 D3 H2 H3.
  assert (SM : q < 60 -> (days = 0 /\ hours = 0 /\ minutes = 0)%Z).
  { intro L.
    assert (P1 : 0 <= inject_Z (days * 86400)) by (change 0 with (inject_Z 0); rewrite <- Zle_Qle; lia).
    assert (P2 : 0 <= inject_Z (hours * 3600)) by (change 0 with (inject_Z 0); rewrite <- Zle_Qle; lia).
    assert (P3 : 0 <= inject_Z (minutes * 60)) by (change 0 with (inject_Z 0); rewrite <- Zle_Qle; lia).
    assert (L1 : inject_Z (days * 86400) < inject_Z 60) by (change (inject_Z 60) with 60; lra).
    assert (L2 : inject_Z (hours * 3600) < inject_Z 60) by (change (inject_Z 60) with 60; lra).
    assert (L3 : inject_Z (minutes * 60) < inject_Z 60) by (change (inject_Z 60) with 60; lra).
    rewrite <- Zlt_Qlt in L1, L2, L3. lia. }
  destruct (Z.eqb_spec days 0) as [->|Nd]; destruct (Z.eqb_spec hours 0) as [->|Nh]; destruct (Z.eqb_spec minutes 0) as [->|Nm];
    cbn [app];
    (split; [repeat (apply Forall_cons; [cbn [tok_in_range]; lia|]); apply Forall_nil|]);
    cbn [denotes fold_right tok_secs];
    repeat match goal with |- context [inject_Z (0 * ?k)] => change (inject_Z (0 * k)) with 0 end;
    repeat match type of Eq with context [inject_Z (0 * ?k)] => change (inject_Z (0 * k)) with 0 in Eq end;
    unfold Qdiv; change (/ 100) with (1 # 100);
    (split; [lra|split; [lra|]]); intro L; destruct (SM L) as (? & ? & ?); try congruence; lra.
Qed.

(** ** backend *)
Section B.
  Variable load : string -> res unit.
  Definition same_below (s s' : list string) : Prop := List.length s = List.length s' /\ tl s = tl s'.
  Lemma get_backend_stack st : stack (snd (get_backend load st)) = stack st.
  Proof.
    unfold get_backend, enter. destruct (existsb _ _); cbn; auto. destruct (load _); cbn; auto.
  Qed.
  Lemma exec_stack p : forall st, stack st <> [] ->
    let '(_, st', _) := exec load p st in same_below (stack st) (stack st').
  Proof.
    induction p; intros st NE; cbn [exec].
    - split; auto.
    - specialize (IHp1 st NE). destruct (exec load p1 st) as [[r st1] t1]. destruct r; auto.
      assert (NE1 : stack st1 <> []) by (destruct IHp1 as [L _]; destruct (stack st), (stack st1); cbn in *; congruence).
      specialize (IHp2 st1 NE1). destruct (exec load p2 st1) as [[r2 st2] t2]. destruct IHp1, IHp2. split; congruence.
    - unfold set_top. cbn. destruct (stack st); [congruence|]. split; auto.
    - pose proof (get_backend_stack st) as E. destruct (get_backend load st) as [r st']. cbn in E |- *. rewrite E. split; auto.
    - split; auto.
    - specialize (IHp st NE). destruct (exec load p st) as [[r st1] t1]. auto.
    - unfold enter. destruct (existsb _ _).
      + assert (NE' : stack (BS (resolve_name name (stack st) :: stack st) (cache st)) <> []) by discriminate.
        specialize (IHp _ NE'). destruct (exec load p _) as [[r st1] t1]. cbn in *. destruct IHp as [L T]. rewrite <- T. split; auto.
      + destruct (load _); cbn; [|split; auto].
        assert (NE' : stack (BS (resolve_name name (stack st) :: stack st) (resolve_name name (stack st) :: cache st)) <> []) by discriminate.
        specialize (IHp _ NE'). destruct (exec load p _) as [[r st1] t1]. cbn in *. destruct IHp as [L T]. rewrite <- T. split; auto.
  Qed.
  Lemma exec_with name body st :
    let '(_, st', _) := exec load (With name body) st in stack st' = stack st.
  Proof.
    cbn [exec]. unfold enter. destruct (existsb _ _); [|destruct (load _); [|reflexivity]].
    - match goal with |- context [exec load body ?s0] => assert (H := @exec_stack body s0 ltac:(discriminate)); destruct (exec load body s0) as [[r st1] t1] end.
      cbn in *. symmetry. apply H.
    - match goal with |- context [exec load body ?s0] => assert (H := @exec_stack body s0 ltac:(discriminate)); destruct (exec load body s0) as [[r st1] t1] end.
      cbn in *. symmetry. apply H.
  Qed.

  Lemma exec_with_current n body st : n <> ""%string -> (In n (cache st) \/ load n = Ok tt) ->
    exec load (With (Some n) (Seq Get body)) st =
      let '(r, st', t) := exec load body (BS (n :: stack st) (if existsb (String.eqb n) (cache st) then cache st else n :: cache st)) in
      (r, leave st', Ok n :: t).
  Proof.
    intros NE A. cbn [exec]. unfold enter, resolve_name. apply String.eqb_neq in NE. rewrite NE.
    assert (X : existsb (String.eqb n) (n :: cache st) = true) by (cbn; now rewrite String.eqb_refl).
    destruct (existsb (String.eqb n) (cache st)) eqn:E.
    - unfold get_backend, enter. cbn [stack cache resolve_name hd]. rewrite E. cbn [rmap leave stack tl cache].
      destruct (exec load body _) as [[r s'] t]. reflexivity.
    - destruct A as [A|A].
      + assert (existsb (String.eqb n) (cache st) = true); [|congruence]. apply existsb_exists. exists n. split; auto. apply String.eqb_refl.
      + rewrite A. unfold get_backend, enter. cbn [stack cache resolve_name hd]. rewrite X. cbn [rmap leave stack tl cache].
        destruct (exec load body _) as [[r s'] t]. reflexivity.
  Qed.
  Lemma exec_failed_import n body st e : n <> ""%string -> ~ In n (cache st) -> load n = Err e ->
    exec load (With (Some n) body) st = (Err e, st, []).
  Proof.
    intros NE A L. cbn [exec]. unfold enter, resolve_name. apply String.eqb_neq in NE. rewrite NE.
    destruct (existsb (String.eqb n) (cache st)) eqn:E.
    - apply existsb_exists in E. destruct E as (m & I & E). apply String.eqb_eq in E. subst. tauto.
    - now rewrite L.
  Qed.
  Lemma set_backend_top n st : stack st <> [] ->
    stack (set_top n st) = n :: tl (stack st) /\
    (In n (cache st) \/ load n = Ok tt -> fst (get_backend load (set_top n st)) = Ok n).
  Proof.
    intro NE. unfold set_top, get_backend, enter. cbn. destruct (stack st); [congruence|]. cbn. split; auto.
    intros A. destruct (existsb (String.eqb n) (cache st)) eqn:E; cbn; auto.
    destruct A as [A|A].
    - assert (existsb (String.eqb n) (cache st) = true); [|congruence]. apply existsb_exists. exists n. split; auto. apply String.eqb_refl.
    - now rewrite A.
  Qed.
End B.
