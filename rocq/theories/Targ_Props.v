(** Properties of the targeter with finite differences (Targ_Model): C52 and C71. *)
From Coq Require Import Reals Lra Lia Psatz.
From Verif Require Import Base Vec3 Angles Poly_Model Sc_Model Guid_Model Targ_Model.
Local Open Scope R_scope.

Lemma bind_ok {E A B} (x : res E A) (f : A -> res E B) b : bind x f = Ok b -> exists a, x = Ok a /\ f a = Ok b.
Proof. destruct x; cbn; intros; try discriminate. eauto. Qed.
Ltac unb H x E := apply bind_ok in H; destruct H as (x & E & H).

(** ** Specification *)

(** The value of a parameter in an orbit, given the elements and the B-plane. *)
Inductive reads (partial_for : element -> orbit -> option R) (bplane : orbit -> option (R * R * R)) (o : orbit) : parameter -> R -> Prop :=
| reads_element e a : partial_for e o = Some a -> reads partial_for bplane o (Element e) a
| reads_br r t l : bplane o = Some (r, t, l) -> reads partial_for bplane o BdotR r
| reads_bt r t l : bplane o = Some (r, t, l) -> reads partial_for bplane o BdotT t
| reads_ltof r t l : bplane o = Some (r, t, l) -> reads partial_for bplane o BLTOF l.

(** The orbit seen from the frame of the objectives, if there is one. *)
Definition seen (transform_to : orbit -> nat -> option orbit) (f : option nat) (o o' : orbit) : Prop :=
  match f with Some f => transform_to o f = Some o' | None => o' = o end.

(** An objective is met by a value, with this scaled error. *)
Definition met (ob : objective) (a err : R) : Prop :=
  err = multiplicative_factor ob * (desired_value ob - a) + additive_factor ob /\ Rabs err <= obj_tolerance ob.

(** Variables of the position and of the velocity, and of the coefficients of the angles. *)
Definition of_state (c : vary) : Prop :=
  In c [PositionX; PositionY; PositionZ; VelocityX; VelocityY; VelocityZ].
Definition of_angles (c : vary) : Prop := In c [MnvrAlpha; MnvrAlphaDDot; MnvrDelta; MnvrDeltaDDot].

(** The change of the position and velocity that the corrections of state variables make. *)
Definition unit6 (c : vary) : vec6 :=
  match c with
  | PositionX => (V3 1 0 0, vzero) | PositionY => (V3 0 1 0, vzero) | PositionZ => (V3 0 0 1, vzero)
  | VelocityX => (vzero, V3 1 0 0) | VelocityY => (vzero, V3 0 1 0) | VelocityZ => (vzero, V3 0 0 1)
  | _ => zero6
  end.
Definition add6 (a b : vec6) : vec6 := (vadd (fst a) (fst b), vadd (snd a) (snd b)).
Definition scale6 (k : R) (a : vec6) : vec6 := (vscale k (fst a), vscale k (snd a)).
Fixpoint combined (vars : list variable) (x : list R) : vec6 :=
  match vars, x with
  | v :: vars', k :: x' => add6 (scale6 k (unit6 (component v))) (combined vars' x')
  | _, _ => zero6
  end.

Lemma vec6_eq (a b : vec6) : fst a = fst b -> snd a = snd b -> a = b.
Proof. destruct a, b; cbn; congruence. Qed.
Ltac six := apply vec6_eq; apply v3_eq; cbn; ring.
Lemma add6_assoc a b c : add6 a (add6 b c) = add6 (add6 a b) c. Proof. six. Qed.
Lemma add6_comm a b : add6 a b = add6 b a. Proof. six. Qed.
Lemma add6_zero a : add6 a zero6 = a. Proof. six. Qed.
Lemma add6_zero_l a : add6 zero6 a = a. Proof. six. Qed.
Lemma move_add sc a b : move (move sc a) b = move sc (add6 a b).
Proof.
  unfold move, with_orbit. cbn [sc_orbit epoch frame radius_km velocity_km_s dry_mass_kg prop_mass_kg extra_mass_kg srp_area_m2 coeff_reflectivity drag_area_m2 coeff_drag sc_thruster mode thrust_direction stm].
  f_equal. f_equal; apply v3_eq; cbn; ring.
Qed.
Lemma move_zero sc : move sc zero6 = sc.
Proof.
  destruct sc as [[e f [a b c] [d g h]]]. unfold move, with_orbit, vadd. cbn. repeat f_equal; ring.
Qed.

Lemma add_at_state c (v : vary) i x c' :
  of_state v -> vec_index v = Ok i -> add_at c i x = Ok c' -> c' = add6 c (scale6 x (unit6 v)).
Proof.
  intros Hv Hi Ha. cbn in Hv. intuition subst; cbn in Hi; injection Hi as <-; cbn in Ha; injection Ha as <-; six.
Qed.

Lemma add_at_defined c (v : vary) x : of_state v -> exists i, vec_index v = Ok i /\ add_at c i x = Ok (add6 c (scale6 x (unit6 v))).
Proof.
  intros Hv. cbn in Hv.
  intuition subst; eexists; (split; [reflexivity|]); cbn; apply (f_equal Ok); six.
Qed.

Lemma state_no_burn v : of_state v -> is_finite_burn v = false.
Proof. cbn. intuition subst; reflexivity. Qed.

Lemma combined_add vars : forall a b, length a = length vars -> (length vars <= length b)%nat ->
  combined vars (add_lists a b) = add6 (combined vars a) (combined vars b).
Proof.
  induction vars as [|v vars IH]; intros [|x a] [|y b]; cbn; intros; try discriminate; try lia; try six.
  rewrite IH by (cbn in *; lia). six.
Qed.
Lemma add_lists_length : forall a b, (length a <= length b)%nat -> length (add_lists a b) = length a.
Proof. induction a as [|x a IH]; intros [|y b] H; cbn in *; try lia. rewrite IH; lia. Qed.

(** C52: a bounded value is within the limits of the variable, unchanged when it already was, and the
    check says which. *)
Theorem C52_bounds v x : min_value v <= max_value v ->
  (min_value v <= apply_bounds v x <= max_value v) /\
  (min_value v <= x <= max_value v -> apply_bounds v x = x) /\
  check_bounds v x = (apply_bounds v x, if Rle_dec (min_value v) x then if Rle_dec x (max_value v) then true else false else false) /\
  (forall y, min_value v <= y <= max_value v -> Rabs (x - apply_bounds v x) <= Rabs (x - y)).
Proof.
  intros H. unfold apply_bounds, check_bounds.
  destruct (Rlt_dec (max_value v) x), (Rlt_dec x (min_value v)), (Rle_dec (min_value v) x), (Rle_dec x (max_value v));
    (split; [lra|]); (split; [lra|]); (split; [first [reflexivity|exfalso; lra]|]); intros y Hy;
    try (exfalso; lra).
  - rewrite !Rabs_pos_eq by lra. lra.
  - rewrite !Rabs_left by lra. lra.
  - replace (x - x) with 0 by ring. rewrite Rabs_R0. apply Rabs_pos.
Qed.
Example bounds_case : min_value (variable_of VelocityX) < max_value (variable_of VelocityX) < 10.
Proof. cbn. lra. Qed.

Section Props.
Context (coast : spacecraft -> Z -> res targ_error spacecraft)
        (guided guided_capped : maneuver -> spacecraft -> Z -> res targ_error spacecraft)
        (transform_to : orbit -> nat -> option orbit)
        (partial_for : element -> orbit -> option R)
        (bplane : orbit -> option (R * R * R))
        (dcm_to_inertial : nat -> orbit -> option m3)
        (solve : list (list R) -> list R -> option (list R))
        (of_secs : R -> Z).
Notation try_achieve := (try_achieve_fd coast guided guided_capped transform_to partial_for bplane dcm_to_inertial solve of_secs).
Notation iter := (iterate coast guided guided_capped transform_to partial_for bplane dcm_to_inertial solve of_secs).
Notation reading := (reads partial_for bplane).

(** ** What a solution says *)

Lemma value_reads o w b p a : b_plane_of bplane w o = Ok b -> achieved_value partial_for o b p = Ok a -> reading o p a.
Proof.
  unfold b_plane_of. intros Hb Ha.
  assert (forall x, b = Some x -> bplane o = Some x).
  { intros x ->. destruct w; [|discriminate]. destruct (bplane o); cbn in Hb; congruence. }
  destruct p; cbn in Ha; try discriminate.
  - constructor. destruct (partial_for e o); cbn in Ha; congruence.
  - destruct b as [[[x y] z]|]; [|discriminate]. injection Ha as <-. econstructor; eauto.
  - destruct b as [[[x y] z]|]; [|discriminate]. injection Ha as <-. econstructor; eauto.
  - destruct b as [[[x y] z]|]; [|discriminate]. injection Ha as <-. econstructor; eauto.
Qed.

Lemma seen_by t o o' : objective_orbit transform_to t o = Ok o' -> seen transform_to (objective_frame t) o o'.
Proof.
  unfold objective_orbit, seen. destruct (objective_frame t) as [f|]; [|congruence].
  destruct (transform_to o f); cbn; congruence.
Qed.

Lemma assess_all_spec t burn xi m ae o w b : b_plane_of bplane w o = Ok b -> forall objs conv errs jac,
  assess_all coast guided guided_capped transform_to partial_for bplane dcm_to_inertial of_secs t burn xi m ae o b objs = Ok (conv, errs, jac) ->
  conv = true ->
  Forall2 (fun ob err => exists a, reading o (obj_parameter ob) a /\ met ob a err) objs errs.
Proof.
  intros Hb. induction objs as [|ob objs IH]; intros conv errs jac H C.
  - injection H as <- <- <-. constructor.
  - cbn [assess_all] in H. unb H a Ea. unb H row Er. unb H rest Es. destruct rest as [[ok es] rows].
    subst conv. injection H as H1 <- <-. apply andb_prop in H1 as [H1 ->].
    constructor; [|eapply IH; eauto].
    exists a. split; [eapply value_reads; eauto|]. unfold met, assess_value in *. cbn [fst snd] in *.
    split; [reflexivity|]. destruct (Rle_dec _ _); [assumption|discriminate].
Qed.

(** The last iteration: the one whose errors are small enough. *)
Lemma iterate_spec t burn start ce ae : forall left it xi m total prev s,
  iter t burn start ce ae left it xi m total prev = Ok s ->
  exists xi' m' xf o,
    final_state coast guided guided_capped burn m' xi' ae = Ok xf /\
    achieved_state s = with_orbit start (sc_orbit xf) /\
    sol_variables s = variables t /\
    seen transform_to (objective_frame t) (sc_orbit xf) o /\
    Forall2 (fun ob err => exists a, reading o (obj_parameter ob) a /\ met ob a err) (objectives t) (achieved_errors s) /\
    (it <= sol_iterations s <= it + left)%nat.
Proof.
  induction left as [|left IH]; intros it xi m total prev s H; cbn [iterate] in H;
    unb H xf Ef; unb H o Eo; unb H b Eb; unb H r Er; destruct r as [[conv errs] jac];
    destruct conv.
  - unb H c Ec. unb H cs Ecs. injection H as <-. exists xi, m, xf, o. cbn.
    repeat split; auto; try lia; [now apply seen_by|]. eapply assess_all_spec; eauto.
  - destruct (match prev with Some p => _ | None => _ end); [discriminate|].
    destruct (solve jac errs); [|discriminate]. unb H x Ex. destruct x as [[m' c] d]. unb H y Ey. discriminate.
  - unb H c Ec. unb H cs Ecs. injection H as <-. exists xi, m, xf, o. cbn.
    repeat split; auto; try lia; [now apply seen_by|]. eapply assess_all_spec; eauto.
  - destruct (match prev with Some p => _ | None => _ end); [discriminate|].
    destruct (solve jac errs); [|discriminate]. unb H x Ex. destruct x as [[m' c] d]. unb H y Ey.
    apply IH in H as (xi' & m2 & xf' & o' & ? & ? & ? & ? & ? & ?).
    exists xi', m2, xf', o'. repeat split; auto; lia.
Qed.

(** C52: a solution meets every objective in the frame of the objectives, with the errors it
    shows, within the iterations allowed. *)
Theorem C52_solution t initial ce ae s :
  try_achieve t initial ce ae = Ok s ->
  (sol_iterations s <= iterations t)%nat /\
  exists o, seen transform_to (objective_frame t) (sc_orbit (achieved_state s)) o /\
    Forall2 (fun ob err => exists a, reading o (obj_parameter ob) a /\ met ob a err) (objectives t) (achieved_errors s).
Proof.
  unfold try_achieve_fd. destruct (objectives t) eqn:Eobj; [discriminate|]. rewrite <- Eobj. intros H.
  unb H start Es. unb H g Eg. unb H xi Exi.
  apply iterate_spec in H as (xi' & m & xf & o' & _ & E & _ & Hs & Hf & Hi).
  split; [lia|]. exists o'. rewrite E. cbn. auto.
Qed.

(** C52: what is refused: no objective, an invalid variable, a burn without thruster, a position in
    a local frame. *)
Theorem C52_checks t initial ce ae s :
  try_achieve t initial ce ae = Ok s ->
  objectives t <> [] /\
  exists start, coast initial ce = Ok start /\
  forall v, In v (variables t) ->
    0 <= max_step v /\ 0 <= max_value v /\ min_value v <= max_value v /\
    (is_finite_burn (component v) = true -> sc_thruster start <> None) /\
    (correction_frame t <> None -> ~ In (component v) [PositionX; PositionY; PositionZ]).
Proof.
  unfold try_achieve_fd. destruct (objectives t) eqn:Eobj; [discriminate|]. intros H. split; [discriminate|].
  unb H start Es. unb H g Eg. clear H. exists start. split; [assumption|].
  revert Eg. generalize (Guess (initial_maneuver ce ae) false zero6) as g0.
  induction (variables t) as [|v vars IH]; intros g0 Eg w; [easy|].
  cbn [initial_guess] in Eg. destruct (valid v) eqn:Ev; cbn [negb] in Eg; [|discriminate].
  unb Eg isp Ep. destruct isp; [discriminate|].
  assert (Hv : 0 <= max_step v /\ 0 <= max_value v /\ min_value v <= max_value v).
  { unfold valid in Ev. repeat (destruct (Rlt_dec _ _); [discriminate|]). repeat split; lra. }
  assert (Hf : correction_frame t <> None -> ~ In (component v) [PositionX; PositionY; PositionZ]).
  { destruct (correction_frame t); [|easy]. intros _ Hin. unb Ep i Ei.
    cbn in Hin. intuition (match goal with H : _ = component v |- _ => rewrite <- H in Ei end; cbn in Ei; congruence || (injection Ei as <-; discriminate)). }
  intros [<-|Hin].
  - destruct Hv as (? & ? & ?). repeat split; auto.
    intros B. rewrite B in Eg. destruct (sc_thruster start); [discriminate|discriminate Eg].
  - destruct (is_finite_burn (component v)).
    + destruct (sc_thruster start); [|discriminate]. unb Eg m Em. eapply IH; eauto.
    + unb Eg i Ei. unb Eg c Ec. eapply IH; eauto.
Qed.

(** ** Impulsive corrections in the frame of the state *)

Lemma initial_guess_state t start : forall vars g g',
  Forall (fun v => of_state (component v)) vars -> initial_guess of_secs t start vars g = Ok g' ->
  g_burn g' = g_burn g /\ g_mnvr g' = g_mnvr g /\
  g_correction g' = add6 (g_correction g) (combined vars (map init_guess vars)).
Proof.
  induction vars as [|v vars IH]; intros g g' Hs H; cbn [initial_guess] in H.
  - injection H as <-. cbn. now rewrite add6_zero.
  - inversion Hs as [|? ? Hv Hs']; subst. destruct (negb (valid v)); [discriminate|]. unb H isp Ep.
    destruct isp; [discriminate|]. rewrite (state_no_burn _ Hv) in H. unb H i Ei. unb H c Ec.
    apply IH in H; [|assumption]. destruct H as (H1 & H2 & H3). cbn [g_burn g_mnvr g_correction] in *.
    rewrite (add_at_state _ _ _ _ _ Hv Ei Ec) in H3. rewrite H1, H2, H3. cbn. repeat split. now rewrite add6_assoc.
Qed.

Lemma corrections_state ce ae : forall vars delta m c m' c' ds,
  Forall (fun v => of_state (component v)) vars ->
  corrections of_secs ce ae vars delta m c = Ok (m', c', ds) ->
  m' = m /\ c' = add6 c (combined vars ds) /\ (length vars <= length ds)%nat /\
  Forall2 (fun v d => exists d0, d = limit_step v d0) vars (firstn (length vars) ds).
Proof.
  induction vars as [|v vars IH]; intros delta m c m' c' ds Hs H; cbn [corrections] in H.
  - injection H as <- <- <-. cbn. rewrite add6_zero. repeat split; [lia|constructor].
  - inversion Hs as [|? ? Hv Hs']; subst. destruct delta as [|d delta]; [discriminate|].
    rewrite (state_no_burn _ Hv) in H. cbv zeta in H. unb H i Ei. unb H cc Ec. unb H r Er.
    destruct r as [[m2 c2] ds2]. injection H as <- <- <-.
    apply IH in Er; [|assumption]. destruct Er as (-> & -> & Hl & Hf).
    rewrite (add_at_state _ _ _ _ _ Hv Ei Ec). cbn. repeat split; [now rewrite add6_assoc|lia|].
    constructor; [eauto|assumption].
Qed.

Lemma total_of_state : forall vars total c c', Forall (fun v => of_state (component v)) vars ->
  total_of vars total c = Ok c' -> c' = add6 c (combined vars total).
Proof.
  induction vars as [|v vars IH]; intros [|x total] c c' Hs H; cbn [total_of] in H;
    try (injection H as <-; cbn; now rewrite add6_zero).
  inversion Hs as [|? ? Hv Hs']; subst. unb H i Ei. unb H cc Ec. apply IH in H; [|assumption].
  rewrite H, (add_at_state _ _ _ _ _ Hv Ei Ec). cbn. now rewrite add6_assoc.
Qed.

(** The states tried are the start moved by the total correction. *)
Lemma iterate_state t start ce ae : correction_frame t = None -> Forall (fun v => of_state (component v)) (variables t) ->
  forall left it total m prev s, length total = length (variables t) ->
  iter t false start ce ae left it (move start (combined (variables t) total)) m total prev = Ok s ->
  corrected_state s = move start (combined (variables t) (correction s)) /\
  length (correction s) = length (variables t) /\
  exists xf, coast (corrected_state s) ae = Ok xf /\ sc_orbit (achieved_state s) = sc_orbit xf.
Proof.
  intros Hc Hs.
  assert (Last : forall total it errs s xf, coast (move start (combined (variables t) total)) ae = Ok xf -> length total = length (variables t) ->
    bind (Ok (combined (variables t) total)) (fun c => bind (correct dcm_to_inertial t start c)
      (fun corrected => Ok (Solution corrected (with_orbit start (sc_orbit xf)) total (variables t) errs it))) = Ok s ->
    corrected_state s = move start (combined (variables t) (correction s)) /\
    length (correction s) = length (variables t) /\
    exists xf, coast (corrected_state s) ae = Ok xf /\ sc_orbit (achieved_state s) = sc_orbit xf).
  { intros total it errs s xf Ef Hl H. cbn [bind] in H. unfold correct in H. rewrite Hc in H. cbn [bind] in H. injection H as <-.
    cbn. repeat split; [assumption|]. exists xf. auto. }
  induction left as [|left IH]; intros it total m prev s Hl H; cbn [iterate] in H;
    unb H xf Ef; unb H o Eo; unb H b Eb; unb H r Er; destruct r as [[conv errs] jac];
    destruct conv.
  - unb H c Ec. apply total_of_state in Ec; [|assumption]. rewrite add6_zero_l in Ec. subst c. eapply Last; eauto.
  - destruct (match prev with Some p => _ | None => _ end); [discriminate|].
    destruct (solve jac errs); [|discriminate]. unb H x Ex. destruct x as [[m' c] d]. unb H y Ey. discriminate.
  - unb H c Ec. apply total_of_state in Ec; [|assumption]. rewrite add6_zero_l in Ec. subst c. eapply Last; eauto.
  - destruct (match prev with Some p => _ | None => _ end); [discriminate|].
    destruct (solve jac errs); [|discriminate]. unb H x Ex. destruct x as [[m' c] d]. unb H y Ey.
    apply corrections_state in Ex; [|assumption]. destruct Ex as (-> & -> & Hd & _). rewrite add6_zero_l in Ey.
    unfold correct in Ey. rewrite Hc in Ey. injection Ey as <-.
    rewrite move_add, <- combined_add in H by assumption.
    apply IH in H; [assumption|]. rewrite add_lists_length; lia.
Qed.

(** C52: an impulsive correction of the position and velocity in the frame of the state is the start,
    at the epoch of the correction, moved by the corrections shown; propagating it gives the state
    achieved. *)
Theorem C52_reproduces t initial ce ae s :
  correction_frame t = None -> Forall (fun v => of_state (component v)) (variables t) ->
  try_achieve t initial ce ae = Ok s ->
  exists start xf, coast initial ce = Ok start /\
    corrected_state s = move start (combined (variables t) (correction s)) /\
    coast (corrected_state s) ae = Ok xf /\ sc_orbit (achieved_state s) = sc_orbit xf.
Proof.
  intros Hc Hs. unfold try_achieve_fd. destruct (objectives t) eqn:Eobj; [discriminate|]. intros H.
  unb H start Es. unb H g Eg. unb H xi Exi. apply initial_guess_state in Eg; [|assumption]. destruct Eg as (B & M & G).
  cbn [g_burn g_mnvr g_correction] in *. rewrite B, M in H. rewrite B, G, add6_zero_l in Exi.
  unfold correct in Exi. rewrite Hc in Exi. injection Exi as <-.
  apply iterate_state in H; [|assumption|assumption|now rewrite map_length].
  destruct H as (H1 & _ & xf & H2 & H3). exists start, xf. auto.
Qed.

Lemma reads_value o w b p a : reading o p a -> b_plane_of bplane w o = Ok b -> (is_b_plane p = true -> w = true) ->
  achieved_value partial_for o b p = Ok a.
Proof.
  intros H Hb W. destruct H as [e a H|r t l H|r t l H|r t l H]; cbn.
  - now rewrite H.
  - rewrite W in Hb by reflexivity. cbn in Hb. rewrite H in Hb. injection Hb as <-. reflexivity.
  - rewrite W in Hb by reflexivity. cbn in Hb. rewrite H in Hb. injection Hb as <-. reflexivity.
  - rewrite W in Hb by reflexivity. cbn in Hb. rewrite H in Hb. injection Hb as <-. reflexivity.
Qed.

Lemma b_plane_defined (o : orbit) (objs : list objective) :
  Forall (fun ob => exists a, reading o (obj_parameter ob) a) objs ->
  exists b, b_plane_of bplane (existsb (fun ob => is_b_plane (obj_parameter ob)) objs) o = Ok b.
Proof.
  intros H. destruct (existsb _ objs) eqn:E; [|cbn; eauto].
  apply existsb_exists in E as (ob & Hin & Hb). rewrite Forall_forall in H. destruct (H _ Hin) as [a Ha].
  cbn. inversion Ha as [e x Hx Hp|r t l Hx Hp|r t l Hx Hp|r t l Hx Hp]; rewrite <- Hp in Hb; try discriminate; rewrite Hx; cbn; eauto.
Qed.

Lemma verified_ok o w b : b_plane_of bplane w o = Ok b -> forall objs errs,
  (forall ob, In ob objs -> is_b_plane (obj_parameter ob) = true -> w = true) ->
  Forall (fun ob => multiplicative_factor ob = 1 /\ additive_factor ob = 0) objs ->
  Forall2 (fun ob err => exists a, reading o (obj_parameter ob) a /\ met ob a err) objs errs ->
  verified partial_for o b objs = Ok true.
Proof.
  intros Hb. induction objs as [|ob objs IH]; intros errs Hw Hfac Hf; [reflexivity|].
  inversion Hf as [|? err ? errs' (a & Ha & He & Ht) Hf']; subst. inversion Hfac as [|? ? [Hm Hadd] Hfac']; subst.
  cbn [verified]. rewrite (reads_value _ _ _ _ _ Ha Hb); [|apply Hw; now left]. cbn [bind].
  rewrite (IH errs'); auto; [|intros; eapply Hw; [right|]; eauto]. cbn [bind].
  rewrite Hm, Hadd in Ht. replace (1 * (desired_value ob - a) + 0) with (desired_value ob - a) in Ht by ring.
  destruct (Rlt_dec _ _); [lra|reflexivity].
Qed.

(** C52: when the factors of the objectives are the default ones and there is no frame for them, the
    check of such a solution succeeds and returns the orbit achieved. *)
Theorem C52_apply_partial t initial ce ae s :
  (forall sc e xf, coast sc e = Ok xf -> epoch (sc_orbit xf) = e) ->
  correction_frame t = None -> objective_frame t = None ->
  Forall (fun v => of_state (component v)) (variables t) ->
  Forall (fun ob => multiplicative_factor ob = 1 /\ additive_factor ob = 0) (objectives t) ->
  try_achieve t initial ce ae = Ok s ->
  exists xf, apply coast guided partial_for bplane of_secs t s = Ok xf /\ sc_orbit xf = sc_orbit (achieved_state s).
Proof.
  intros Hep Hc Ho Hs Hfac H.
  pose proof (C52_reproduces _ _ _ _ _ Hc Hs H) as (start & xf & _ & _ & Hx & Ha).
  assert (Hv : sol_variables s = variables t).
  { revert H. unfold try_achieve_fd. destruct (objectives t) eqn:Eobj; [discriminate|]. intros H.
    unb H st Es. unb H g Eg. unb H xi Exi. apply iterate_spec in H. now destruct H as (? & ? & ? & ? & ? & ? & ? & ?). }
  apply C52_solution in H as (_ & o & Hseen & Hf). rewrite Ho in Hseen. cbn in Hseen. rewrite Ha in Hseen. subst o.
  exists xf. split; [|easy]. unfold apply.
  assert (E : to_mnvr of_secs s = Err NotFinite).
  { unfold to_mnvr. rewrite Hv. replace (existsb _ (variables t)) with false; [reflexivity|].
    symmetry. clear -Hs. induction Hs as [|v vs Hv _ IH]; [reflexivity|]. cbn. now rewrite (state_no_burn _ Hv). }
  rewrite E, Ha, (Hep _ _ _ Hx), Hx. cbn [bind].
  destruct (b_plane_defined (sc_orbit xf) (objectives t)) as [b Hb].
  { clear -Hf. induction Hf as [|ob err obs errs (a & H1 & _) _ IH]; constructor; eauto. }
  unfold b_plane_target. rewrite Hb. cbn [bind].
  rewrite (verified_ok _ _ _ Hb _ (achieved_errors s)); auto.
  intros ob Hin Hp. apply existsb_exists. eauto.
Qed.

(** ** The size of the corrections *)

Lemma limit_step_bound v d : 0 <= max_step v -> min_value v <= 0 <= max_value v -> Rabs (limit_step v d) <= max_step v.
Proof.
  intros Hs [H1 H2]. unfold limit_step. rewrite (Rabs_pos_eq (max_step v)) by assumption.
  destruct (Rlt_dec (max_step v) (Rabs d)).
  - unfold fsignum. destruct (Rlt_dec d 0); rewrite Rabs_mult, (Rabs_pos_eq (max_step v)) by assumption;
      [rewrite Rabs_left by lra|rewrite Rabs_pos_eq by lra]; lra.
  - assert (Hd : - max_step v <= d <= max_step v) by (pose proof (Rle_abs d); pose proof (Rle_abs (- d)); rewrite Rabs_Ropp in *; lra).
    destruct (Rlt_dec _ _); [|destruct (Rlt_dec _ _)]; apply Rabs_le; lra.
Qed.

Lemma corrections_bound ce ae : forall vars delta m c m' c' ds,
  corrections of_secs ce ae vars delta m c = Ok (m', c', ds) ->
  (length vars <= length ds)%nat /\
  Forall2 (fun v d => is_finite_burn (component v) = false -> exists d0, d = limit_step v d0) vars (firstn (length vars) ds).
Proof.
  induction vars as [|v vars IH]; intros delta m c m' c' ds H; cbn [corrections] in H.
  - split; [cbn; lia|constructor].
  - destruct delta as [|d delta]; [discriminate|]. destruct (is_finite_burn (component v)) eqn:B.
    + unb H m2 Em. unb H r Er. destruct r as [[m3 c3] ds3]. injection H as <- <- <-.
      apply IH in Er as [? ?]. split; [cbn; lia|]. cbn. constructor; [congruence|assumption].
    + cbv zeta in H. unb H i Ei. unb H cc Ec. unb H r Er. destruct r as [[m3 c3] ds3]. injection H as <- <- <-.
      apply IH in Er as [? ?]. split; [cbn; lia|]. cbn. constructor; [eauto|assumption].
Qed.

Definition within (n : nat) (v : variable) (x : R) : Prop :=
  is_finite_burn (component v) = false -> min_value v <= 0 -> Rabs (x - init_guess v) <= INR n * max_step v.

Lemma within_add n : forall vars total ds,
  Forall (fun v => 0 <= max_step v /\ 0 <= max_value v) vars -> Forall2 (within n) vars total ->
  (length vars <= length ds)%nat ->
  Forall2 (fun v d => is_finite_burn (component v) = false -> exists d0, d = limit_step v d0) vars (firstn (length vars) ds) ->
  Forall2 (within (S n)) vars (add_lists total ds).
Proof.
  induction vars as [|v vars IH]; intros total ds Hv Ht Hl Hd.
  - inversion Ht; subst. constructor.
  - inversion Ht as [|? x ? total' Hx Ht']; subst. destruct ds as [|d ds]; [cbn in Hl; lia|].
    cbn [length firstn] in Hd. inversion Hd as [|? ? ? ? Hd1 Hd2]; subst. inversion Hv as [|? ? [? ?] Hv']; subst.
    cbn [add_lists]. constructor; [|apply IH; auto; cbn in Hl; lia].
    intros B M. destruct (Hd1 B) as [d0 ->]. specialize (Hx B M).
    pose proof (limit_step_bound v d0 ltac:(assumption) ltac:(lra)).
    replace (x + limit_step v d0 - init_guess v) with ((x - init_guess v) + limit_step v d0) by ring.
    eapply Rle_trans; [apply Rabs_triang|]. rewrite S_INR. lra.
Qed.

Lemma iterate_within t burn start ce ae : Forall (fun v => 0 <= max_step v /\ 0 <= max_value v) (variables t) ->
  forall left it xi m total prev s, Forall2 (within it) (variables t) total ->
  iter t burn start ce ae left it xi m total prev = Ok s ->
  Forall2 (within (sol_iterations s)) (variables t) (correction s).
Proof.
  intros Hv. induction left as [|left IH]; intros it xi m total prev s Ht H; cbn [iterate] in H;
    unb H xf Ef; unb H o Eo; unb H b Eb; unb H r Er; destruct r as [[conv errs] jac];
    destruct conv.
  - unb H c Ec. unb H cs Ecs. injection H as <-. exact Ht.
  - destruct (match prev with Some p => _ | None => _ end); [discriminate|].
    destruct (solve jac errs); [|discriminate]. unb H x Ex. destruct x as [[m' c] d]. unb H y Ey. discriminate.
  - unb H c Ec. unb H cs Ecs. injection H as <-. exact Ht.
  - destruct (match prev with Some p => _ | None => _ end); [discriminate|].
    destruct (solve jac errs); [|discriminate]. unb H x Ex. destruct x as [[m' c] d]. unb H y Ey.
    apply corrections_bound in Ex as [Hl Hd]. eapply IH; [|exact H]. now apply within_add.
Qed.

(** C52: no iteration moves a variable of the state by more than its maximum step, when the minimum
    value is not positive. *)
Theorem C52_step_partial t initial ce ae s :
  try_achieve t initial ce ae = Ok s ->
  Forall2 (fun v x => is_finite_burn (component v) = false -> min_value v <= 0 ->
             Rabs (x - init_guess v) <= INR (sol_iterations s) * max_step v) (variables t) (correction s).
Proof.
  intros H. pose proof (C52_checks _ _ _ _ _ H) as (_ & st & _ & Hv).
  unfold try_achieve_fd in H. destruct (objectives t) eqn:Eobj; [discriminate|].
  unb H start Es. unb H g Eg. unb H xi Exi. eapply iterate_within; [| |exact H].
  - apply Forall_forall. intros v Hin. destruct (Hv v Hin) as (? & ? & _). auto.
  - clear. induction (variables t) as [|v vars IH]; constructor; auto.
    intros _ _. replace (init_guess v - init_guess v) with 0 by ring. rewrite Rabs_R0. cbn. lra.
Qed.

(** ** Burns whose angles are corrected *)

(** The coefficients of the angles that the corrections give to a maneuver. *)
Record coeffs := Coeffs { az2 : R; az0 : R; el2 : R; el0 : R }.
Definition no_coeffs := Coeffs 0 0 0 0.
Definition add_coeff (q : coeffs) (c : vary) (x : R) : coeffs :=
  match c with
  | MnvrAlphaDDot => Coeffs (az2 q + x) (az0 q) (el2 q) (el0 q)
  | MnvrAlpha => Coeffs (az2 q) (az0 q + x) (el2 q) (el0 q)
  | MnvrDeltaDDot => Coeffs (az2 q) (az0 q) (el2 q + x) (el0 q)
  | MnvrDelta => Coeffs (az2 q) (az0 q) (el2 q) (el0 q + x)
  | _ => q
  end.
Fixpoint add_coeffs (q : coeffs) (vars : list variable) (x : list R) : coeffs :=
  match vars, x with
  | v :: vars', k :: x' => add_coeffs (add_coeff q (component v) k) vars' x'
  | _, _ => q
  end.
(** The burn from the correction to the achievement, at full thrust, with these angles. *)
Definition steered (ce ae : Z) (q : coeffs) : maneuver :=
  Maneuver ce ae 1 (Angles (Quadratic (az2 q) 0 (az0 q)) (Quadratic (el2 q) 0 (el0 q))) RCN.

Lemma angles_burn v : of_angles v -> is_finite_burn v = true.
Proof. cbn. intuition subst; reflexivity. Qed.

Lemma correct_maneuver_angles ce ae ce' ae' q v x : of_angles (component v) ->
  correct_maneuver of_secs ce' ae' (steered ce ae q) v x = Ok (steered ce ae (add_coeff q (component v) x)).
Proof.
  destruct v as [c]. unfold of_angles. cbn [component]. intros H. cbn in H. destruct H as [<-|[<-|[<-|[<-|[]]]]];
    unfold correct_maneuver, steered, add_azimuth, add_elevation, with_repr; cbn -[Rplus]; rewrite Rplus_comm; reflexivity.
Qed.
Lemma guess_maneuver_angles ce ae q v : of_angles (component v) ->
  guess_maneuver of_secs (steered ce ae q) v = Ok (steered ce ae (add_coeff q (component v) (init_guess v))).
Proof.
  destruct v as [c]. unfold of_angles. cbn [component]. intros H. cbn in H. destruct H as [<-|[<-|[<-|[<-|[]]]]];
    unfold guess_maneuver, steered, add_azimuth, add_elevation, with_repr; cbn -[Rplus]; rewrite Rplus_comm; reflexivity.
Qed.

Lemma initial_guess_angles t start ce ae : forall vars q b g',
  Forall (fun v => of_angles (component v)) vars ->
  initial_guess of_secs t start vars (Guess (steered ce ae q) b zero6) = Ok g' ->
  g' = Guess (steered ce ae (add_coeffs q vars (map init_guess vars))) (match vars with [] => b | _ => true end) zero6.
Proof.
  induction vars as [|v vars IH]; intros q b g' Hs H; cbn [initial_guess] in H; [now injection H as <-|].
  inversion Hs as [|? ? Hv Hs']; subst. destruct (negb (valid v)); [discriminate|]. unb H isp Ep.
  destruct isp; [discriminate|]. rewrite (angles_burn _ Hv) in H. destruct (sc_thruster start); [|discriminate].
  cbn [g_mnvr g_correction] in H. rewrite (guess_maneuver_angles _ _ _ _ Hv) in H. cbn [bind] in H.
  apply IH in H; [|assumption]. rewrite H. now destruct vars.
Qed.

Lemma corrections_angles ce ae : forall vars delta q c m' c' ds,
  Forall (fun v => of_angles (component v)) vars ->
  corrections of_secs ce ae vars delta (steered ce ae q) c = Ok (m', c', ds) ->
  m' = steered ce ae (add_coeffs q vars ds) /\ c' = c /\ (length vars <= length ds)%nat.
Proof.
  induction vars as [|v vars IH]; intros delta q c m' c' ds Hs H; cbn [corrections] in H.
  - injection H as <- <- <-. cbn. repeat split. lia.
  - inversion Hs as [|? ? Hv Hs']; subst. destruct delta as [|d delta]; [discriminate|].
    rewrite (angles_burn _ Hv), (correct_maneuver_angles _ _ _ _ _ _ _ Hv) in H. cbn [bind] in H. unb H r Er.
    destruct r as [[m2 c2] ds2]. injection H as <- <- <-. apply IH in Er; [|assumption].
    destruct Er as (-> & -> & ?). cbn. repeat split. lia.
Qed.

Lemma rebuild_angles ce ae : forall vars x q, Forall (fun v => of_angles (component v)) vars -> length x = length vars ->
  rebuild of_secs ce ae vars x (steered ce ae q) = Ok (steered ce ae (add_coeffs q vars x)).
Proof.
  induction vars as [|v vars IH]; intros [|y x] q Hs Hl; cbn in Hl; try discriminate; [reflexivity|].
  inversion Hs as [|? ? Hv Hs']; subst. cbn [rebuild]. rewrite (correct_maneuver_angles _ _ _ _ _ _ _ Hv). cbn [bind add_coeffs]. apply IH; auto.
Qed.

Lemma add_coeff_comm q a x b y : add_coeff (add_coeff q a x) b y = add_coeff (add_coeff q b y) a x.
Proof. destruct a, b; cbn; try reflexivity; f_equal; ring. Qed.
Lemma add_coeff_out q a x : forall vars l, add_coeffs (add_coeff q a x) vars l = add_coeff (add_coeffs q vars l) a x.
Proof.
  induction vars as [|v vars IH] in q |- *; intros [|y l]; cbn; try reflexivity. rewrite add_coeff_comm. apply IH.
Qed.
Lemma add_coeff_twice q a x y : add_coeff (add_coeff q a x) a y = add_coeff q a (x + y).
Proof. destruct a; cbn; try reflexivity; f_equal; ring. Qed.
Lemma add_coeffs_lists : forall vars x y q, length x = length vars -> (length vars <= length y)%nat ->
  add_coeffs q vars (add_lists x y) = add_coeffs (add_coeffs q vars x) vars y.
Proof.
  induction vars as [|v vars IH]; intros [|a x] [|b y] q H1 H2; cbn in *; try lia; [reflexivity|reflexivity|].
  rewrite IH by lia. now rewrite !add_coeff_out, add_coeff_twice.
Qed.

Lemma iterate_angles t start ce ae : correction_frame t = None -> Forall (fun v => of_angles (component v)) (variables t) ->
  forall left it total prev s, length total = length (variables t) ->
  iter t true start ce ae left it start (steered ce ae (add_coeffs no_coeffs (variables t) total)) total prev = Ok s ->
  corrected_state s = start /\ sol_variables s = variables t /\ length (correction s) = length (variables t) /\
  exists xf, final_state coast guided guided_capped true (steered ce ae (add_coeffs no_coeffs (variables t) (correction s))) start ae = Ok xf /\
    sc_orbit (achieved_state s) = sc_orbit xf.
Proof.
  intros Hc Hs. induction left as [|left IH]; intros it total prev s Hl H; cbn [iterate] in H;
    unb H xf Ef; unb H o Eo; unb H b Eb; unb H r Er; destruct r as [[conv errs] jac];
    destruct conv.
  - cbn [bind] in H. unfold correct in H. rewrite Hc in H. cbn [bind] in H. injection H as <-.
    cbn [corrected_state achieved_state sol_variables correction]. rewrite move_zero. repeat split; [assumption|]. exists xf. auto.
  - destruct (match prev with Some p => _ | None => _ end); [discriminate|].
    destruct (solve jac errs); [|discriminate]. unb H x Ex. destruct x as [[m' c] d]. unb H y Ey. discriminate.
  - cbn [bind] in H. unfold correct in H. rewrite Hc in H. cbn [bind] in H. injection H as <-.
    cbn [corrected_state achieved_state sol_variables correction]. rewrite move_zero. repeat split; [assumption|]. exists xf. auto.
  - destruct (match prev with Some p => _ | None => _ end); [discriminate|].
    destruct (solve jac errs); [|discriminate]. unb H x Ex. destruct x as [[m' c] d]. unb H y Ey.
    apply corrections_angles in Ex; [|assumption]. destruct Ex as (-> & -> & Hd).
    unfold correct in Ey. rewrite Hc in Ey. injection Ey as <-. rewrite move_zero in H.
    rewrite <- add_coeffs_lists in H by assumption. apply IH in H; [assumption|].
    rewrite add_lists_length; lia.
Qed.

(** C52: when only the angles of the burn and their second derivatives are corrected, the maneuver of
    the solution is the one whose burn reached the state achieved: no thrust until its start, thrust to its
    end, and its law, which then coasts, until the objectives. *)
Theorem C52_maneuver_partial t initial ce ae s :
  (forall sc e xf, coast sc e = Ok xf -> epoch (sc_orbit xf) = e) ->
  (forall m sc e xf, guided m sc e = Ok xf -> epoch (sc_orbit xf) = e) ->
  correction_frame t = None -> variables t <> [] -> Forall (fun v => of_angles (component v)) (variables t) ->
  try_achieve t initial ce ae = Ok s ->
  exists m start before after xf, to_mnvr of_secs s = Ok m /\ coast initial ce = Ok start /\ corrected_state s = start /\
    coast start (m_start m) = Ok before /\ guided_capped m (mut_mode before Thrust) (m_end m) = Ok after /\ guided m after ae = Ok xf /\
    sc_orbit (achieved_state s) = sc_orbit xf.
Proof.
  intros Hep Heg Hc Hne Hs. unfold try_achieve_fd. destruct (objectives t) eqn:Eobj; [discriminate|]. intros H.
  unb H start Es. unb H g Eg. change (initial_maneuver ce ae) with (steered ce ae no_coeffs) in Eg.
  apply initial_guess_angles in Eg; [|assumption]. subst g. cbn [g_burn g_mnvr] in H.
  unb H xi Exi. destruct (variables t) as [|v0 vars0] eqn:Ev; [congruence|]. rewrite <- Ev in *. injection Exi as <-.
  apply iterate_angles in H; [|assumption|assumption|now rewrite map_length].
  destruct H as (H1 & H2 & H3 & xf & H4 & H5).
  assert (E1 : epoch (sc_orbit (corrected_state s)) = ce) by (rewrite H1; eauto).
  assert (E2 : epoch (sc_orbit (achieved_state s)) = ae).
  { rewrite H5. cbn [final_state] in H4. unb H4 sc1 Ep. unb H4 sc2 Ep2. eauto. }
  cbn [final_state] in H4. unb H4 before Ep. unb H4 after Ep2.
  exists (steered ce ae (add_coeffs no_coeffs (variables t) (correction s))), start, before, after, xf.
  repeat split; auto. unfold to_mnvr. rewrite H2, E1, E2.
  replace (existsb _ (variables t)) with true.
  - change (initial_maneuver ce ae) with (steered ce ae no_coeffs). apply rebuild_angles; auto.
  - symmetry. rewrite Ev in *. inversion Hs as [|? ? Hv Hs']; subst. cbn. now rewrite (angles_burn _ Hv).
Qed.

(** C52: a solution that corrects both a burn and the state has no maneuver. *)
Theorem C52_mixed_no_maneuver s v w m :
  In v (sol_variables s) -> is_finite_burn (component v) = true -> In w (sol_variables s) -> of_state (component w) ->
  to_mnvr of_secs s <> Ok m.
Proof.
  intros Hv Bv Hw Sw. unfold to_mnvr.
  replace (existsb _ (sol_variables s)) with true by (symmetry; apply existsb_exists; eauto).
  generalize (initial_maneuver (epoch (sc_orbit (corrected_state s))) (epoch (sc_orbit (achieved_state s)))) as m0.
  generalize (epoch (sc_orbit (corrected_state s))) as ce, (epoch (sc_orbit (achieved_state s))) as ae. intros ce ae.
  generalize (correction s) as x. clear Hv. revert Hw. induction (sol_variables s) as [|u vars IH]; [easy|].
  intros Hw [|y x] m0 H; cbn [rebuild] in H; [discriminate|]. unb H m' Em. destruct Hw as [->|Hw].
  - cbn in Sw. destruct w as [c]. cbn [component] in Sw.
    destruct Sw as [<-|[<-|[<-|[<-|[<-|[<-|[]]]]]]]; discriminate Em.
  - eapply IH; eauto.
Qed.

(** C52: the maneuver of a solution does not depend on the value found for the duration of the burn:
    with the default bounds it lasts no time at all. *)
Theorem C52_duration_lost s x :
  of_secs 0 = 0%Z -> (epoch (sc_orbit (corrected_state s)) <= epoch (sc_orbit (achieved_state s)))%Z ->
  sol_variables s = [variable_of Duration] -> correction s = [x] -> 1 / 1000 < Rabs x ->
  exists m, to_mnvr of_secs s = Ok m /\ m_end m = m_start m.
Proof.
  intros Hz Hle Hv Hx Hl. unfold to_mnvr. rewrite Hv, Hx.
  generalize dependent (epoch (sc_orbit (corrected_state s))). intros ce.
  generalize (epoch (sc_orbit (achieved_state s))). intros ae Hle.
  cbn [existsb component variable_of is_finite_burn orb rebuild correct_maneuver].
  destruct (Rlt_dec (1 / 1000) (Rabs x)); [|contradiction]. cbn [bind rebuild].
  eexists. split; [reflexivity|]. cbn [with_end m_end m_start initial_maneuver].
  replace (apply_bounds _ _) with 0; [rewrite Hz; lia|].
  unfold apply_bounds, seconds. cbn [max_value min_value].
  assert (IZR (ce - ae) <= 0) by (apply IZR_le; lia).
  destruct (Rlt_dec _ _); [lra|]. destruct (Rlt_dec _ _); [reflexivity|]. lra.
Qed.

(** C52: the maneuver of a solution that corrects one date of the burn, within its bounds: a millisecond or
    less changes nothing, a correction of the end moves the end, a correction of the start moves the whole
    burn, its end included, where the end was the date of the objectives. *)
Theorem C52_dates s v x :
  (forall d, of_secs (seconds d) = d) -> seconds (of_secs x) = x -> sol_variables s = [v] -> correction s = [x] ->
  min_value v <= x <= max_value v -> component v = StartEpoch \/ component v = EndEpoch ->
  let ce := epoch (sc_orbit (corrected_state s)) in let ae := epoch (sc_orbit (achieved_state s)) in
  exists m, to_mnvr of_secs s = Ok m /\
    (Rabs x <= 1 / 1000 -> m_start m = ce /\ m_end m = ae) /\
    (1 / 1000 < Rabs x -> component v = EndEpoch -> m_start m = ce /\ m_end m = (ae + of_secs x)%Z) /\
    (1 / 1000 < Rabs x -> component v = StartEpoch -> m_start m = (ce + of_secs x)%Z /\ m_end m = (ae + of_secs x)%Z).
Proof.
  intros Hz Hx Hv Hc Hb Hd ce ae.
  assert (B : apply_bounds v x = x).
  { unfold apply_bounds. destruct (Rlt_dec _ _); [lra|]. destruct (Rlt_dec _ _); lra. }
  unfold to_mnvr. rewrite Hv, Hc. fold ce ae. cbn [existsb rebuild]. unfold correct_maneuver.
  destruct Hd as [E|E]; rewrite E; cbn [is_finite_burn orb bind]; (destruct (Rlt_dec (1 / 1000) (Rabs x)) as [L|L]; cbn [bind]);
    (eexists; split; [reflexivity|]); cbn [with_end with_start m_start m_end initial_maneuver]; repeat split; intros; try lra; try congruence.
  - replace (ce + of_secs x - ce)%Z with (of_secs x) by lia. now rewrite Hx, B.
  - replace (ae + of_secs x - ae)%Z with (of_secs x) by lia. now rewrite Hx, B.
Qed.
End Props.
