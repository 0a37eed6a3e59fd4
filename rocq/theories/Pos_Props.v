(** C101: a position device measures the coordinates that it names. *)
From Coq Require Import String Reals Lra Lia.
From Verif Require Import Base Arc_Model Vec3 Sens_Model Sched_Model Traj_Model Sol_Model Noise_Model Noise_Spec Noise_Proofs.
From Verif Require Import Prop_Model Prop_Examples Odp_Model Odp_Props Noise_Props Pos_Model.
From Verif Require Import Vec3.
From Verif Require Noise_Model.
Local Open Scope string_scope.
Local Open Scope R_scope.

(** ** What is meant *)

(** The coordinate that an observable names. *)
Definition coordinate (t : msr_type) (r : v3) : option R :=
  match t with MX => Some (vx r) | MY => Some (vy r) | MZ => Some (vz r) | _ => None end.

(** A device built by successive calls. *)
Definition pd_built (name : string) (calls : list (msr_type * noise)) : pos_device :=
  fold_left (fun d tn => pd_with_noise (fst tn) (snd tn) d) calls (pd_new name).

(** The noise that was last given for an observable. *)
Fixpoint last_given (t : msr_type) (calls : list (msr_type * noise)) : option noise :=
  match calls with
  | [] => None
  | (u, n) :: calls' => match last_given t calls' with
                        | Some x => Some x
                        | None => if msr_type_eq_dec t u then Some n else None
                        end
  end.

(** ** Building *)
Lemma type_eqb_spec a b : reflect (a = b) (type_eqb a b).
Proof. unfold type_eqb. destruct (msr_type_eq_dec a b); now constructor. Qed.

Lemma im_get_insert {V} t u (v : V) l :
  im_get type_eqb t (im_insert type_eqb u v l) = if type_eqb t u then Some v else im_get type_eqb t l.
Proof.
  induction l as [|(k, x) l IH]; cbn; [reflexivity|].
  destruct (type_eqb_spec u k) as [->|N]; cbn.
  - destruct (type_eqb t k); reflexivity.
  - rewrite IH. destruct (type_eqb_spec t k) as [->|]; [|reflexivity].
    destruct (type_eqb_spec k u) as [->|]; [now elim N|reflexivity].
Qed.

Definition table (d : pos_device) : list (msr_type * noise) := match pd_noises d with Some l => l | None => [] end.

Lemma built_inv : forall calls d, NoDup (pd_types d) ->
  let d' := fold_left (fun d tn => pd_with_noise (fst tn) (snd tn) d) calls d in
  NoDup (pd_types d') /\ (forall t, In t (pd_types d') <-> In t (pd_types d) \/ In t (map fst calls)) /\
  (forall t, im_get type_eqb t (table d') = match last_given t calls with Some n => Some n | None => im_get type_eqb t (table d) end).
Proof.
  induction calls as [|(u, n) calls IH]; intros d Nd; cbn [fold_left fst snd].
  { split; [exact Nd|]. split; [cbn; tauto|]. intros t. reflexivity. }
  assert (Nd' : NoDup (pd_types (pd_with_noise u n d))).
  { cbn [pd_with_noise pd_types]. now apply set_insert_NoDup. }
  destruct (IH _ Nd') as (A & B & C). split; [exact A|]. split.
  - intros t. rewrite B. cbn [pd_with_noise pd_types map fst]. rewrite set_insert_in. cbn [In]. intuition (subst; auto).
  - intros t. rewrite C. cbn [last_given]. destruct (last_given t calls); [reflexivity|].
    unfold table at 1. cbn [pd_with_noise pd_noises]. rewrite im_get_insert. fold (table d).
    destruct (msr_type_eq_dec t u), (type_eqb_spec t u); congruence.
Qed.

(** C101: however a device is built, it has each of the observables that it was given once, each
    with the noise last given for it, whose variance and constant bias the filter finds. *)
Theorem C101_built : forall name calls, let d := pd_built name calls in
  NoDup (pd_types d) /\ (forall t, In t (pd_types d) <-> In t (map fst calls)) /\
  (forall t n, last_given t calls = Some n ->
     pd_covar d t = Ok (covariance n) /\
     pd_bias d t = Ok (match bias n with Some g => or_zero (constant g) | None => 0 end)) /\
  (forall t, calls <> [] -> last_given t calls = None -> pd_covar d t = Err (NoNoiseOf t) /\ pd_bias d t = Err (NoNoiseOf t)) /\
  forall t, calls = [] -> pd_covar d t = Ok 0 /\ pd_bias d t = Ok 0.
Proof.
  intros name calls d. destruct (built_inv calls (pd_new name) (NoDup_nil _)) as (A & B & C).
  fold (pd_built name calls) in A, B, C. fold d in A, B, C.
  split; [exact A|]. split; [intros t; rewrite B; cbn; tauto|].
  assert (S : calls <> [] -> exists l, pd_noises d = Some l).
  { intros N. unfold d, pd_built. destruct calls as [|c calls] using rev_ind; [now elim N|].
    rewrite fold_left_app. cbn. eexists. reflexivity. }
  split; [|split].
  - intros t n L. assert (N : calls <> []) by (intros ->; discriminate).
    destruct (S N) as (l & E). specialize (C t). rewrite L in C. unfold table in C. rewrite E in C.
    unfold pd_covar, pd_bias. rewrite E, C. now split.
  - intros t N L. destruct (S N) as (l & E). specialize (C t). rewrite L in C. unfold table in C. rewrite E in C. cbn in C.
    unfold pd_covar, pd_bias. rewrite E, C. now split.
  - intros t ->. now split.
Qed.

(** ** Measuring *)

(** C101, for a device whose observables are the first of X, Y, Z in this order: without noise each
    of them is the coordinate that it names plus its constant bias.  Missing: other orders, for
    which it is false (below). *)
Theorem C101_coordinates_partial : forall w position t r name calls k,
  position t = Some r -> pd_types (pd_built name calls) = firstn k [MX; MY; MZ] ->
  exists m, pd_measure w position t None (pd_built name calls) = (pd_built name calls, None, Ok (Some m)) /\
    tracker m = name /\ Arc_Model.epoch m = t /\ rejected m = false /\
    forall ty, In ty (pd_types (pd_built name calls)) ->
      exists x b, coordinate ty r = Some x /\ pd_bias (pd_built name calls) ty = Ok b /\ get ty (obs m) = Some (x + b).
Proof.
  intros w position t r name calls k P T.
  assert (Nm : pd_name (pd_built name calls) = name).
  { unfold pd_built. generalize (pd_new name) (eq_refl : pd_name (pd_new name) = name). clear.
    induction calls as [|c l IH]; intros d E; [exact E|]. cbn [fold_left]. apply IH. exact E. }
  assert (B : forall ty, In ty (pd_types (pd_built name calls)) -> exists b, pd_bias (pd_built name calls) ty = Ok b).
  { intros ty I. pose proof (C101_built name calls) as (_ & In' & G & _). apply In' in I.
    assert (exists n, last_given ty calls = Some n) as (n & L).
    { clear - I. induction calls as [|(u, n) l IH]; [destruct I|]. cbn [last_given].
      destruct (last_given ty l) as [x|]; [now exists x|]. destruct (msr_type_eq_dec ty u); [now exists n|].
      destruct I as [E|I]; [cbn in E; congruence|]. destruct (IH I) as (x & [=]). }
    destruct (G ty n L) as (_ & E). eexists. exact E. }
  unfold pd_measure. rewrite P. unfold pd_instantaneous, pd_sample. cbn [bind].
  destruct (pd_built name calls) as [nm ns ty]. cbn [pd_types pd_name] in *. subst nm.
  rewrite T in *.
  destruct k as [|[|[|k]]]; cbn [firstn] in *.
  - cbn. eexists. split; [reflexivity|]. split; [reflexivity|]. split; [reflexivity|]. split; [reflexivity|]. intros u [].
  - destruct (B MX (or_introl eq_refl)) as (bx & Ex).
    cbn [pd_push component bind]. rewrite Ex. cbn. eexists. split; [reflexivity|]. split; [reflexivity|]. split; [reflexivity|]. split; [reflexivity|].
    intros u [<-|[]]. do 2 eexists. split; [reflexivity|]. split; [exact Ex|]. cbn. f_equal. ring.
  - destruct (B MX ltac:(cbn; auto)) as (bx & Ex), (B MY ltac:(cbn; auto)) as (by_ & Ey).
    cbn [pd_push component bind]. rewrite Ex. cbn [bind]. rewrite Ey. cbn [bind]. eexists.
    split; [reflexivity|]. split; [reflexivity|]. split; [reflexivity|]. split; [reflexivity|].
    intros u [<-|[<-|[]]]; do 2 eexists; (split; [reflexivity|]); (split; [eassumption|]); cbn; f_equal; ring.
  - replace (firstn k []) with (@nil msr_type) in * by now destruct k.
    destruct (B MX ltac:(cbn; auto)) as (bx & Ex), (B MY ltac:(cbn; auto)) as (by_ & Ey), (B MZ ltac:(cbn; auto)) as (bz & Ez).
    cbn [pd_push component bind]. rewrite Ex. cbn [bind]. rewrite Ey. cbn [bind]. rewrite Ez. cbn [bind]. eexists.
    split; [reflexivity|]. split; [reflexivity|]. split; [reflexivity|]. split; [reflexivity|].
    intros u [<-|[<-|[<-|[]]]]; do 2 eexists; (split; [reflexivity|]); (split; [eassumption|]); cbn; f_equal; ring.
Qed.

Definition meter : noise := {| white_noise := Some {| mean := 0; sigma := / 1000 |}; bias := None |}.
Definition gps_calls : list (msr_type * noise) := [(MX, meter); (MY, meter); (MZ, meter)].

Example coordinates_gps : exists m,
  pd_measure (fun _ => 0) (fun _ => Some (V3 7000 (-200) 35)) 5 None (pd_built "GPS" gps_calls) =
    (pd_built "GPS" gps_calls, None, Ok (Some m)) /\
  get MX (obs m) = Some 7000 /\ get MY (obs m) = Some (-200) /\ get MZ (obs m) = Some 35.
Proof.
  destruct (C101_coordinates_partial (fun _ => 0) (fun _ => Some (V3 7000 (-200) 35)) 5 _ "GPS" gps_calls 3 eq_refl eq_refl)
    as (m & E & _ & _ & _ & G).
  exists m. split; [exact E|].
  destruct (G MX ltac:(cbn; auto)) as (x & b & Ex & Eb & ->), (G MY ltac:(cbn; auto)) as (y & b' & Ey & Eb' & ->),
    (G MZ ltac:(cbn; auto)) as (z & b'' & Ez & Eb'' & ->).
  cbn in Ex, Ey, Ez, Eb, Eb', Eb''.
  assert (x = 7000) by congruence. assert (y = -200) by congruence. assert (z = 35) by congruence.
  assert (b = 0) by congruence. assert (b' = 0) by congruence. assert (b'' = 0) by congruence. subst.
  split; [|split]; f_equal; ring.
Qed.

(** A device of the coordinate Y alone, or of Z before X, measures other coordinates: the axis is
    the place of the observable among those of the device.  At the true state the residual that
    the filter sees vanishes (both sides are wrong alike), but its row is that of the coordinate
    named; with measurements that come from elsewhere the residual is the difference of the
    coordinates. *)
Theorem C101_order_refuted : forall w position t r, position t = Some r ->
  (exists m, pd_measure w position t None (pd_built "GPS" [(MY, meter)]) = (pd_built "GPS" [(MY, meter)], None, Ok (Some m)) /\
     get MY (obs m) = Some (vx r + 0 + 0) /\ pd_row MY = Ok [0; 1; 0; 0; 0; 0; 0; 0; 0]) /\
  (exists m, pd_measure w position t None (pd_built "GPS" [(MZ, meter); (MX, meter)]) =
       (pd_built "GPS" [(MZ, meter); (MX, meter)], None, Ok (Some m)) /\
     get MZ (obs m) = Some (vx r + 0 + 0) /\ get MX (obs m) = Some (vy r + 0 + 0)).
Proof.
  intros w position t r P. unfold pd_measure. rewrite P. split.
  - eexists. split; [reflexivity|]. split; reflexivity.
  - eexists. split; [reflexivity|]. split; reflexivity.
Qed.

(** A fourth observable makes every measurement panic. *)
Theorem C101_fourth_refuted : forall w position t r name calls,
  position t = Some r -> (3 < length (pd_types (pd_built name calls)))%nat ->
  snd (pd_measure w position t None (pd_built name calls)) = Panic.
Proof.
  intros w position t r name calls P L. unfold pd_measure. rewrite P. unfold pd_instantaneous, pd_sample. cbn [snd bind].
  pose proof (C101_built name calls) as (_ & In' & G & _). set (d := pd_built name calls) in *.
  assert (B : forall ty, In ty (pd_types d) -> exists b, pd_bias d ty = Ok b).
  { intros ty I. apply In' in I.
    assert (exists n, last_given ty calls = Some n) as (n & E).
    { clear - I. induction calls as [|(u, n) l IH]; [destruct I|]. cbn [last_given].
      destruct (last_given ty l) as [x|]; [now exists x|]. destruct (msr_type_eq_dec ty u); [now exists n|].
      destruct I as [E|I]; [cbn in E; congruence|]. destruct (IH I) as (x & [=]). }
    destruct (G ty n E) as (_ & E'). eexists. exact E'. }
  destruct (pd_types d) as [|a [|b [|c [|e l]]]]; cbn [length] in L; try lia.
  destruct (B a ltac:(cbn; auto)) as (xa & Ea), (B b ltac:(cbn; auto)) as (xb & Eb), (B c ltac:(cbn; auto)) as (xc & Ec).
  cbn [pd_push component bind]. rewrite Ea. cbn [bind]. rewrite Eb. cbn [bind]. rewrite Ec. reflexivity.
Qed.
Example fourth_built : (3 < length (pd_types (pd_built "GPS" (gps_calls ++ [(Range, meter)]))))%nat.
Proof. cbn. lia. Qed.

(** C101: with white noises, each coordinate has the draw of its own noise, in the order X, Y, Z. *)
Theorem C101_noise : forall w position t r name nx ny nz k, position t = Some r ->
  let d := pd_built name [(MX, {| white_noise := Some nx; bias := None |}); (MY, {| white_noise := Some ny; bias := None |});
                          (MZ, {| white_noise := Some nz; bias := None |})] in
  exists m, pd_measure w position t (Some k) d = (d, Some (3 + k)%nat, Ok (Some m)) /\ tracker m = name /\ Arc_Model.epoch m = t /\ rejected m = false /\
    get MX (obs m) = Some (vx r + (mean nx + sigma nx * w k)) /\
    get MY (obs m) = Some (vy r + (mean ny + sigma ny * w (1 + k)%nat)) /\
    get MZ (obs m) = Some (vz r + (mean nz + sigma nz * w (2 + k)%nat)).
Proof.
  intros w position t r name nx ny nz k P d. unfold pd_measure. rewrite P. eexists. split; [reflexivity|].
  split; [reflexivity|]. split; [reflexivity|]. split; [reflexivity|].
  split; [|split]; cbn; f_equal; ring.
Qed.

(** ** The bias *)

(** The device of the process, as for stations. *)
Definition position_dv (position : Z -> option v3) : device_ops Z pos_device (list R) (list (list R)) position_error :=
  {| name_of := pd_name; types_of := pd_types;
     Odp_Model.h_tilde := fun _ m types _ => pd_h_tilde 1 (obs m) types;
     covar_of := fun d types _ => pd_covar_diagonal 1 d types;
     Odp_Model.measure := fun d t _ =>
       let '(d', _, out) := pd_measure (fun _ => 0) position t None d in
       (d', bind out (fun o => Ok (option_map obs o)));
     bias_of := fun d types _ => pd_bias_vector 1 d types |}.

(** A filter that records what it is given. *)
Definition recording : filter_ops Z nat Z (list R * list R) unit (list R) (list (list R)) unit :=
  {| start_filter := fun _ => O; initialize_noises := fun k => k;
     time_update := fun k s => (S k, Ok s);
     measurement_update := fun k s real computed _ _ _ =>
       (S k, Ok (s, {| values := (real, computed); res_rejected := false; res_tracker := None;
                       res_types := [] |}, Some tt));
     replace_state := fun _ => true; nominal_of := fun x => x; state_of := fun x => x |}.
Definition position_window (position : Z -> option v3) (d : pos_device) (types : list msr_type) (m : measurement) :=
  process_window (E := unit) (FS := unit) demo_so recording (position_dv position) 1 (demo_arc [m]) None m d types
    {| r_inst := clock_inst 0 1 true; r_epoch := 0; r_kf := O; r_devices := [("GPS", d)]; r_traj := [];
       r_sol := new; r_accepted := 0; r_rejected := 0 |}.

(** A constant bias is put twice into simulated measurements (in the noise and beside it) and
    once into the one expected, from which the process then takes it away: at the true state, the
    filter is given a difference of twice the bias; for a measurement from elsewhere that has the
    bias, a difference of the bias. *)
Theorem C101_bias_refuted : forall w k r b, let d := pd_built "GPS" [(MX, biased b)] in
  exists d' rng m, pd_measure w (fun _ => Some r) 0 (Some k) d = (d', rng, Ok (Some m)) /\
    get MX (obs m) = Some (vx r + 2 * b) /\
    forall v, exists run res, position_window (fun _ => Some r) d [MX] (demo_m "GPS" 0 [(MX, v)] false) = Ok run /\
      residuals (r_sol run) = [Some res] /\ values res = ([v], [vx r]).
Proof.
  intros w k r b d. do 3 eexists. split; [reflexivity|]. split.
  - cbn. f_equal. unfold seconds. replace (IZR 0 / IZR 1000000000) with 0 by (unfold Rdiv; ring).
    replace (- 0 / (IZR 60000000000 / IZR 1000000000)) with 0 by (unfold Rdiv; ring). rewrite exp_0. ring.
  - intros v. do 2 eexists. split; [reflexivity|]. split; [reflexivity|]. cbn [values label].
    f_equal. apply (f_equal (fun x => [x])). cbn. ring.
Qed.

(** With measurements of the true coordinate Y, a device of Y alone gives the filter the difference
    of two coordinates, with the row of Y. *)
Theorem C101_residual_refuted : forall r, let d := pd_built "GPS" [(MY, meter)] in
  exists run res, position_window (fun _ => Some r) d [MY] (demo_m "GPS" 0 [(MY, vy r)] false) = Ok run /\
    residuals (r_sol run) = [Some res] /\ values res = ([vy r], [vx r]) /\
    pd_h_tilde 1 [(MY, vy r)] [MY] = Ok [[0; 1; 0; 0; 0; 0; 0; 0; 0]].
Proof.
  intros r d. do 2 eexists. split; [reflexivity|]. split; [reflexivity|]. split; [|reflexivity]. cbn [values label].
  f_equal. apply (f_equal (fun x => [x])). cbn. ring.
Qed.

(** ** The sensitivity *)

(** The product of a row and of a variation of the nine estimated parameters. *)
Fixpoint row_times (row : list R) (dx : list R) : R :=
  match row, dx with
  | a :: row', x :: dx' => a * x + row_times row' dx'
  | _, _ => 0
  end.

(** C101: the row of an observable is the derivative of the coordinate that it names: whatever the
    variation of position, velocity, coefficients and mass, the coordinate changes by the product;
    rows without a measurement are zero (unlike those of stations, C59_absent_refuted). *)
Theorem C101_rows : forall m measured types h, pd_h_tilde m measured types = Ok h ->
  length h = m /\
  (forall i ty, nth_error types i = Some ty -> get ty measured <> None ->
     exists row, nth_error h i = Some row /\
     forall r dr a b c d e f, exists x y, coordinate ty r = Some x /\ coordinate ty (vadd r dr) = Some y /\
       y - x = row_times row [vx dr; vy dr; vz dr; a; b; c; d; e; f]) /\
  (forall i, (i < m)%nat -> (forall ty, nth_error types i = Some ty -> get ty measured = None) -> nth_error h i = Some (repeat 0 SIZE)).
Proof.
  intros m measured types h. unfold pd_h_tilde.
  set (av := fun t => match get t measured with Some _ => true | None => false end).
  assert (G : forall types i mat h, h_rows pd_row av i types mat = Ok h ->
    length h = length mat /\
    (forall j ty, nth_error types j = Some ty -> av ty = true -> exists row, pd_row ty = Ok row /\ nth_error h (i + j) = Some row) /\
    (forall j, (forall k ty, j = (i + k)%nat -> nth_error types k = Some ty -> av ty = false) -> nth_error h j = nth_error mat j)).
  { clear types h. intros types. induction types as [|t types IH]; intros i mat h H; cbn [h_rows] in H.
    - assert (h = mat) as -> by congruence. split; [reflexivity|]. split; [intros [|j]; discriminate|reflexivity].
    - destruct (av t) eqn:A.
      + destruct (pd_row t) as [row| | |] eqn:Er; cbn [bind] in H; try discriminate.
        destruct (set_row i row mat) as [mat'|] eqn:Es; [|discriminate].
        assert (S : length mat' = length mat /\ nth_error mat' i = Some row /\ forall j, j <> i -> nth_error mat' j = nth_error mat j).
        { clear - Es. revert mat mat' Es. induction i as [|i IH]; intros [|x mat] mat' E; cbn [set_row] in E; try discriminate.
          - assert (mat' = row :: mat) as -> by congruence. split; [reflexivity|]. split; [reflexivity|]. intros [|j] N; [now elim N|reflexivity].
          - destruct (set_row i row mat) as [q|] eqn:Eq; cbn in E; [|discriminate]. assert (mat' = x :: q) as -> by congruence.
            destruct (IH _ _ Eq) as (a & b & c). split; [cbn; congruence|]. split; [exact b|]. intros [|j] N; [reflexivity|]. cbn. apply c. congruence. }
        destruct S as (S1 & S2 & S3). destruct (IH _ _ _ H) as (L & P & Q). split; [congruence|]. split.
        * intros [|j] ty E Aty; cbn in E.
          -- assert (ty = t) as -> by congruence. exists row. split; [exact Er|]. rewrite Nat.add_0_r.
             rewrite (Q i); [exact S2|]. intros k ty E'. lia.
          -- destruct (P j ty E Aty) as (rw & R1 & R2). exists rw. split; [exact R1|]. now replace (i + S j)%nat with (S i + j)%nat by lia.
        * intros j N. rewrite (Q j).
          -- apply S3. intros ->. specialize (N 0%nat t ltac:(lia) eq_refl). congruence.
          -- intros k ty -> E. exact (N (S k) ty ltac:(lia) E).
      + destruct (IH _ _ _ H) as (L & P & Q). split; [exact L|]. split.
        * intros [|j] ty E Aty; cbn in E; [assert (ty = t) as -> by congruence; congruence|].
          destruct (P j ty E Aty) as (rw & R1 & R2). exists rw. split; [exact R1|]. now replace (i + S j)%nat with (S i + j)%nat by lia.
        * intros j N. apply Q. intros k ty -> E. exact (N (S k) ty ltac:(lia) E). }
  intros H. destruct (G _ _ _ _ H) as (L & P & Q). split; [now rewrite L, repeat_length|]. split.
  - intros i ty E Aty. destruct (P i ty E) as (row & Er & En). { unfold av. destruct (get ty measured); [reflexivity|now elim Aty]. }
    exists row. split; [exact En|]. intros r dr a b c d e f. clear - Er.
    destruct ty; cbn in Er; try discriminate;
      (match type of Er with Ok ?t = _ => assert (row = t) as -> by congruence end);
      (do 2 eexists; split; [reflexivity|]; split; [reflexivity|]; cbn; ring).
  - intros i Hi N. rewrite (Q i).
    + clear - Hi. revert i Hi. induction m as [|m IH]; intros i Hi; [lia|]. destruct i as [|i]; [reflexivity|]. cbn. apply IH. lia.
    + intros k ty -> E. unfold av. cbn in N. now rewrite (N ty E).
Qed.
(** Y and Z asked for, Y measured. *)
Example rows_y : pd_h_tilde 2 [(MY, 5)] [MY; MZ] = Ok [[0; 1; 0; 0; 0; 0; 0; 0; 0]; [0; 0; 0; 0; 0; 0; 0; 0; 0]].
Proof. reflexivity. Qed.

Print Assumptions C101_built.
Print Assumptions C101_coordinates_partial.
Print Assumptions C101_order_refuted.
Print Assumptions C101_fourth_refuted.
Print Assumptions C101_noise.
Print Assumptions C101_bias_refuted.
Print Assumptions C101_residual_refuted.
Print Assumptions C101_rows.
