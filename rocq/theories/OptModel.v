(** Models of [lambeq/training/{spsa,rotosolve,nelder_mead}_optimizer.py] and [optimizer.py].
    numpy arrays are lists, floats exact rationals extended with infinities and NaN where the code
    can produce them; sign of zero and rounding are not modelled. *)
From Coq Require Import QArith Qround Qabs.
From Verif Require Import PyBase.
Set Implicit Arguments.

(** ** numpy scalars *)
Inductive num := Fin (q : Q) | PInf | NInf | NaN.
Definition num_add (a b : num) : num :=
  match a, b with
  | NaN, _ | _, NaN => NaN
  | Fin x, Fin y => Fin (x + y)
  | PInf, NInf | NInf, PInf => NaN
  | PInf, _ | _, PInf => PInf
  | NInf, _ | _, NInf => NInf
  end.
Definition qsgn (q : Q) : Z := Z.sgn (Qnum q).
(** multiplication by a finite number *)
Definition num_scale (k : Q) (a : num) : num :=
  match a with
  | Fin x => Fin (k * x)
  | NaN => NaN
  | PInf => match qsgn k with Z0 => NaN | Zpos _ => PInf | Zneg _ => NInf end
  | NInf => match qsgn k with Z0 => NaN | Zpos _ => NInf | Zneg _ => PInf end
  end.
(** numpy division of finite numbers (warns instead of raising) *)
Definition num_div (a b : Q) : num :=
  if Qeq_bool b 0 then match qsgn a with Z0 => NaN | Zpos _ => PInf | Zneg _ => NInf end else Fin (a / b).
Definition qmax (a b : Q) : Q := if Qle_bool a b then b else a.
Definition qmin (a b : Q) : Q := if Qle_bool a b then a else b.
(** [x.clip(lo, hi)] = minimum(maximum(x, lo), hi) *)
Definition qclip (lo hi x : Q) : Q := qmin (qmax x lo) hi.
Definition num_clip (lo hi : Q) (a : num) : num :=
  match a with Fin x => Fin (qclip lo hi x) | PInf => Fin (qmin hi hi) | NInf => Fin (qmin lo hi) | NaN => NaN end.

Fixpoint map2 {A B C} (f : A -> B -> C) (l : list A) (m : list B) : list C :=
  match l, m with x :: l', y :: m' => f x y :: map2 f l' m' | _, _ => [] end.

(** ** the mask, spsa_optimizer.py 138-152 = nelder_mead_optimizer.py 282-294.
    [free] are the free symbols of each Diagram of the batch; [set.union] of no set raises. *)
Definition batch_mask (symbols : list string) (free : list (list string)) : res (list bool) :=
  match free with
  | [] => Err TypeError
  | _ => let relevant := match List.concat free with [] => symbols | r => r end in
         Ok (map (fun s => existsb (String.eqb s) relevant) symbols)
  end.
Definition b2q (b : bool) : Q := if b then 1%Q else 0%Q.

(** ** SPSA *)
Definition bounds := option (list (Q * Q)).
(** [self.project], spsa_optimizer.py 108-116 *)
Definition spsa_project (b : bounds) (x : list num) : list num :=
  match b with None => x | Some bs => map2 (fun v lh => num_clip (fst lh) (snd lh) v) x bs end.

Record spsa := SPSA {
  weights : list num;          (* model.weights *)
  gradient : list num;
  hyper_a : Q; hyper_c : Q;    (* hyperparams['a'], hyperparams['c'] *)
  A_ : Q; a_ : Q; c_ : Q;      (* self.A, self.a, self.c *)
  ak : Q; ck : Q; sweep : Q;   (* current_sweep *)
  bds : bounds }.

Section Spsa.
  (** real power, uninterpreted *)
  Variable pow : Q -> Q -> Q.
  Definition alpha : Q := 602 # 1000.
  Definition gamma : Q := 101 # 1000.

  (** constructor, spsa_optimizer.py 84-116 and optimizer.py 57-61 (hyperparams present) *)
  Definition spsa_new (w : list num) (a c A : Q) (b : bounds) : res spsa :=
    match b with
    | Some bs => if negb (List.length bs =? List.length w) then Err ValueError
                 else Ok (SPSA w (map (fun _ => Fin 0) w) a c A a c (a / pow (1 + A) alpha) (c / pow 1 gamma) 1 b)
    | None => Ok (SPSA w (map (fun _ => Fin 0) w) a c A a c (a / pow (1 + A) alpha) (c / pow 1 gamma) 1 b)
    end.

  (** the loss of the batch as a function of the weights; it may raise *)
  Variable loss : list num -> res Q.

  Definition set_weights (o : spsa) (w : list num) : spsa :=
    SPSA w (gradient o) (hyper_a o) (hyper_c o) (A_ o) (a_ o) (c_ o) (ak o) (ck o) (sweep o) (bds o).

  (** [x + s * ck * delta] *)
  Definition shift (o : spsa) (s : Q) (delta : list Q) : list num :=
    spsa_project (bds o) (map2 (fun x d => num_add x (Fin (s * (ck o * d)))) (weights o) delta).

  (** lines 170-173 for one coordinate; the losses and the perturbed weights are finite there *)
  Definition grad_at (o : spsa) (l0 l1 : Q) (delta : Q) (xp xm : num) : num :=
    match bds o with
    | None => num_div (l0 - l1) (2 * ck o * delta)
    | Some _ => match num_add xp (num_scale (-1) xm) with
                | Fin d => num_div (l0 - l1) d
                | _ => NaN          (* only from weights that are already infinite or NaN *)
                end
    end.

  (** backward, spsa_optimizer.py 118-181; the third component lists the weights at which the
      model was evaluated *)
  Definition spsa_backward (o : spsa) (mask : list bool) (delta : list Q) : res Q * spsa * list (list num) :=
    let xplus := shift o 1 delta in
    match loss xplus with
    | Err e => (Err e, set_weights o xplus, [xplus])
    | Ok l0 =>
        let xminus := shift o (-1) delta in
        match loss xminus with
        | Err e => (Err e, set_weights o xminus, [xplus; xminus])
        | Ok l1 =>
            let grad := map2 (fun d xx => grad_at o l0 l1 d (fst xx) (snd xx)) delta (combine xplus xminus) in
            let masked := map2 (fun g m => num_scale (b2q m) g) grad mask in
            (Ok ((l0 + l1) / 2)%Q,
             SPSA (weights o) (map2 num_add (gradient o) masked) (hyper_a o) (hyper_c o) (A_ o) (a_ o) (c_ o) (ak o) (ck o) (sweep o) (bds o),
             [xplus; xminus])
        end
    end.

  (** update_hyper_params, 190-196 *)
  Definition spsa_update (o : spsa) : spsa :=
    let s := (sweep o + 1)%Q in
    SPSA (weights o) (gradient o) (hyper_a o) (hyper_c o) (A_ o) (a_ o) (c_ o)
         (hyper_a o / pow (s + A_ o) alpha)%Q (hyper_c o / pow s gamma)%Q s (bds o).
  (** step, 183-188; zero_grad multiplies by 0 (optimizer.py 94-96) *)
  Definition spsa_step (o : spsa) : spsa :=
    let w := spsa_project (bds o) (map2 (fun x g => num_add x (num_scale (-1) (num_scale (ak o) g))) (weights o) (gradient o)) in
    let o1 := spsa_update (set_weights o w) in
    SPSA (weights o1) (map (num_scale 0) (gradient o1)) (hyper_a o1) (hyper_c o1) (A_ o1) (a_ o1) (c_ o1) (ak o1) (ck o1) (sweep o1) (bds o1).

  (** state_dict, 198-212 *)
  Record spsa_state := SState { sd_A : Q; sd_a : Q; sd_c : Q; sd_ak : Q; sd_ck : Q; sd_sweep : Q }.
  Definition spsa_save (o : spsa) : spsa_state := SState (A_ o) (a_ o) (c_ o) (ak o) (ck o) (sweep o).
  (** load_state_dict, 214-228 *)
  Definition spsa_load (o : spsa) (s : spsa_state) : spsa :=
    SPSA (weights o) (gradient o) (hyper_a o) (hyper_c o) (sd_A s) (sd_a s) (sd_c s) (sd_ak s) (sd_ck s) (sd_sweep s) (bds o).
End Spsa.

(** ** Rotosolve, rotosolve_optimizer.py *)
(** project, 78-80: [abs(x) % 1] *)
Definition roto_project (x : Q) : Q := (Qabs.Qabs x - inject_Z (Qfloor (Qabs.Qabs x)))%Q.

Fixpoint upd {A} (l : list A) (i : nat) (v : A) : list A :=
  match l, i with
  | [], _ => []
  | _ :: l', 0 => v :: l'
  | x :: l', S i' => x :: upd l' i' v
  end.

Section Roto.
  (** np.arctan2(y, x) / (2 pi) *)
  Variable turn : Q -> Q -> Q.
  Variable loss : list Q -> Q.

  (** body of the loop, 104-120; the weights array is updated in place *)
  Definition roto_coord (w : list Q) (i : nat) : list Q :=
    let phi := nth i w 0%Q in
    let m_phi := loss w in
    let w1 := upd w i (phi + (1 # 4))%Q in
    let m_plus := loss w1 in
    let w2 := upd w1 i (phi - (1 # 4))%Q in
    let m_minus := loss w2 in
    let angle := turn (2 * m_phi - m_plus - m_minus)%Q (m_plus - m_minus)%Q in
    upd w2 i (roto_project (phi - (1 # 4) - angle)%Q).
  (** backward, 82-122 *)
  Definition roto_backward (w : list Q) : Q * list Q :=
    let w' := fold_left roto_coord (seq 0 (List.length w)) w in (loss w', w').
End Roto.

(** ** Nelder-Mead, nelder_mead_optimizer.py *)
Notation vec := (list Q).
Definition vadd (a b : vec) : vec := map2 Qplus a b.
Definition vscale (k : Q) (a : vec) : vec := map (Qmult k) a.
Definition vsub (a b : vec) : vec := map2 Qminus a b.

Record nm := NM {
  nw : vec;                     (* model.weights *)
  ngrad : vec;
  sim : list vec; fsim : list Q;
  first_iter : bool; ncalls : nat; nsweep : nat }.

Section NelderMead.
  Variable nbounds : option (list (Q * Q)).
  Variables rho chi psi sigma xatol fatol : Q.
  (** np.argsort: some sorting permutation *)
  Variable argsort : list Q -> list nat.
  Variable dim : nat.           (* self.N *)

  (** project, 221-225 *)
  Definition nm_project (x : vec) : vec :=
    match nbounds with None => x | Some bs => map2 (fun v lh => qclip (fst lh) (snd lh) v) x bs end.
  Definition take {A} (d : A) (l : list A) (ind : list nat) : list A := map (fun i => nth i l d) ind.

  (** the loss of this batch; it must not raise *)
  Variable f : vec -> Q.

  (** objective, 227-262: sets the weights, counts the call *)
  Definition eval (w : vec) (s : nm) : Q * nm :=
    (f w, NM w (ngrad s) (sim s) (fsim s) (first_iter s) (S (ncalls s)) (nsweep s)).
  Definition set_last (s : nm) (x : vec) (fx : Q) : nm :=
    NM (nw s) (ngrad s) (upd (sim s) (List.length (sim s) - 1) x) (upd (fsim s) (List.length (fsim s) - 1) fx)
       (first_iter s) (ncalls s) (nsweep s).
  Definition qlt (a b : Q) : bool := negb (Qle_bool b a).

  (** 301-303 and 361-363 *)
  Definition resort (s : nm) : nm :=
    let ind := argsort (fsim s) in
    NM (nw s) (ngrad s) (take [] (sim s) ind) (take 0%Q (fsim s) ind) (first_iter s) (ncalls s) (nsweep s).

  (** 297-304 *)
  Definition first (s : nm) : nm :=
    let s1 := fold_left (fun s k =>
        let '(v, s') := eval (nth k (sim s) []) s in
        NM (nw s') (ngrad s') (sim s') (upd (fsim s') k v) (first_iter s') (ncalls s') (nsweep s'))
      (seq 0 (dim + 1)) s in
    let s2 := resort s1 in
    NM (nw s2) (ngrad s2) (sim s2) (fsim s2) false (ncalls s2) (nsweep s2).

  (** 306-309: both spreads within tolerance; [max] of an empty array raises, [dim] is positive *)
  Definition vmax (l : list Q) : Q := fold_left qmax l 0%Q.
  Definition converged (s : nm) : bool :=
    Qle_bool (vmax (List.concat (map (fun v => map Qabs.Qabs (vsub v (nth 0 (sim s) []))) (tl (sim s))))) xatol &&
    Qle_bool (vmax (map (fun v => Qabs.Qabs (nth 0 (fsim s) 0 - v)%Q) (tl (fsim s)))) fatol.

  Definition vsum (l : list vec) : vec := match l with [] => [] | x :: l' => fold_left vadd l' x end.

  (** 351-359 *)
  Definition shrink (s : nm) : nm :=
    fold_left (fun s j =>
        let x0 := nth 0 (sim s) [] in
        let xj := nm_project (vadd x0 (vscale sigma (vsub (nth j (sim s) []) x0))) in
        let s1 := NM (nw s) (ngrad s) (upd (sim s) j xj) (fsim s) (first_iter s) (ncalls s) (nsweep s) in
        let '(v, s2) := eval (nth j (sim s1) []) s1 in
        NM (nw s2) (ngrad s2) (sim s2) (upd (fsim s2) j v) (first_iter s2) (ncalls s2) (nsweep s2))
      (seq 1 dim) s.

  (** 310-359: one move of the simplex *)
  Definition move (s : nm) : nm :=
    let last := nth dim (sim s) [] in
    let xbar := map (fun q => q / inject_Z (Z.of_nat dim))%Q (vsum (firstn dim (sim s))) in
    let xr := nm_project (vsub (vscale (1 + rho) xbar) (vscale rho last)) in
    let '(fxr, s) := eval xr s in
    if qlt fxr (nth 0 (fsim s) 0%Q) then
      let xe := nm_project (vadd xbar (vscale (rho * chi) (vsub xbar last))) in
      let '(fxe, s) := eval xe s in
      if qlt fxe fxr then set_last s xe fxe else set_last s xr fxr
    else if qlt fxr (nth (dim - 1) (fsim s) 0%Q) then set_last s xr fxr
    else if qlt fxr (nth dim (fsim s) 0%Q) then
      let xc := nm_project (vadd xbar (vscale (psi * rho) (vsub xbar last))) in
      let '(fxc, s) := eval xc s in
      if Qle_bool fxc fxr then set_last s xc fxc else shrink s
    else
      let xcc := nm_project (vadd xbar (vscale psi (vsub last xbar))) in
      let '(fxcc, s) := eval xcc s in
      if qlt fxcc (nth dim (fsim s) 0%Q) then set_last s xcc fxcc else shrink s.

  (** backward, 264-374 *)
  Definition nm_backward (mask : list bool) (s : nm) : Q * nm :=
    let s := if first_iter s then first s else s in
    let s := if converged s then s else move s in
    let s := resort s in
    let loss := fold_left qmin (tl (fsim s)) (nth 0 (fsim s) 0%Q) in
    (loss, NM (nw s) (map2 (fun x m => x * b2q m)%Q (nth 0 (sim s) []) mask) (sim s) (fsim s) (first_iter s) (ncalls s) (nsweep s)).

  (** step, 376-381 *)
  Definition nm_step (s : nm) : nm :=
    NM (nm_project (ngrad s)) (map (Qmult 0) (ngrad s)) (sim s) (fsim s) (first_iter s) (ncalls s) (S (nsweep s)).
End NelderMead.

(** constructor, 127-219: explicit or default initial simplex *)
Definition nm_new (nbounds : option (list (Q * Q))) (w : vec) (simplex : option (list vec)) : res nm :=
  let bad := match nbounds with
             | None => false
             | Some bs => negb (List.length bs =? List.length w) || existsb (fun lh => negb (Qle_bool (fst lh) (snd lh))) bs
             end in
  if bad then Err ValueError
  else
    let w := nm_project nbounds w in
    let n := List.length w in
    let vertex k := let y := nth k w 0%Q in upd w k (if Qeq_bool y 0 then (25 # 100000) else (105 # 100) * y)%Q in
    let mk sim := NM w (map (fun _ => 0%Q) w) (map (nm_project nbounds) sim)
                     (map (fun _ => 0%Q) (seq 0 (n + 1)))  (* np.inf in the code; overwritten by [first] before use *)
                     true 0 1 in
    match simplex with
    | None => Ok (mk (w :: map vertex (seq 0 n)))
    | Some sx => if negb (List.length sx =? n + 1) || existsb (fun v => negb (List.length v =? n)) sx then Err ValueError
                 else Ok (mk sx)
    end.
