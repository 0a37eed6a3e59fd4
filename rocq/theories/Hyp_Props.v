(** Properties of the targeter with partials (Hyp_Model): C84. *)
From Coq Require Import Reals Lra Lia Psatz.
From Coquelicot Require Import Coquelicot.
From Verif Require Import Base Vec3 Angles Poly_Model Sc_Model Guid_Model Targ_Model Targ_Props Targ_Newton Hyp_Model.
Local Open Scope R_scope.

(** ** Specification *)

(** The value of a parameter in an orbit and its partials, given those of the elements and of the
    B-plane. *)
Inductive reads_dual (partial_for : element -> orbit -> option dual6) (bplane : orbit -> option (dual6 * dual6 * dual6)) (o : orbit)
  : parameter -> dual6 -> Prop :=
| dual_element e a : partial_for e o = Some a -> reads_dual partial_for bplane o (Element e) a
| dual_br r t l : bplane o = Some (r, t, l) -> reads_dual partial_for bplane o BdotR r
| dual_bt r t l : bplane o = Some (r, t, l) -> reads_dual partial_for bplane o BdotT t
| dual_ltof r t l : bplane o = Some (r, t, l) -> reads_dual partial_for bplane o BLTOF l.

(** The position and velocity of an orbit along a curve change at this rate. *)
Definition moves (o : R -> orbit) (d : vec6) : Prop :=
  is_derive (fun h => vx (radius_km (o h))) 0 (vx (fst d)) /\
  is_derive (fun h => vy (radius_km (o h))) 0 (vy (fst d)) /\
  is_derive (fun h => vz (radius_km (o h))) 0 (vz (fst d)) /\
  is_derive (fun h => vx (velocity_km_s (o h))) 0 (vx (snd d)) /\
  is_derive (fun h => vy (velocity_km_s (o h))) 0 (vy (snd d)) /\
  is_derive (fun h => vz (velocity_km_s (o h))) 0 (vz (snd d)).

(** [m] is the matrix of the partials of the final position and velocity with respect to the initial ones. *)
Definition block_index (c : vary) : nat :=
  match c with
  | PositionX => 0 | PositionY => 1 | PositionZ => 2 | VelocityX => 3 | VelocityY => 4 | _ => 5
  end.

Lemma shift_state sc v x sc' : shift sc v x = Ok sc' -> of_state v /\ sc' = move sc (scale6 x (unit6 v)).
Proof.
  unfold shift. intros H. destruct v; try discriminate; (split; [cbn; tauto|]);
  injection H as <-; unfold move; f_equal; destruct sc as [[e f [a b c] [d g h]]]; cbn; f_equal; apply v3_eq; cbn; ring.
Qed.
Lemma shift_defined sc v x : of_state v -> shift sc v x = Ok (move sc (scale6 x (unit6 v))).
Proof.
  intros H. destruct (shift sc v x) as [sc'|e| |] eqn:E.
  - apply shift_state in E as [_ ->]. reflexivity.
  - exfalso. cbn in H. intuition subst; discriminate.
  - exfalso. cbn in H. intuition subst; discriminate.
  - exfalso. cbn in H. intuition subst; discriminate.
Qed.

Lemma shift_all_state : forall vars xs sc sc', shift_all sc vars xs = Ok sc' ->
  Forall (fun v => of_state (component v)) vars /\ (length vars <= length xs)%nat /\ sc' = move sc (combined vars xs).
Proof.
  induction vars as [|v vars IH]; intros xs sc sc' H.
  - cbn in H. injection H as <-. split; [constructor|]. split; [cbn; lia|]. destruct xs; cbn; now rewrite move_zero.
  - destruct xs as [|x xs]; [discriminate|]. cbn [shift_all] in H. unb H sc1 Esh.
    apply shift_state in Esh as [Hv ->]. apply IH in H as (Hs & Hl & ->).
    split; [constructor; assumption|]. split; [cbn; lia|]. cbn [combined]. now rewrite move_add.
Qed.
Lemma shift_all_defined : forall vars xs sc, Forall (fun v => of_state (component v)) vars -> (length vars <= length xs)%nat ->
  shift_all sc vars xs = Ok (move sc (combined vars xs)).
Proof.
  induction vars as [|v vars IH]; intros xs sc Hs Hl.
  - destruct xs; cbn; now rewrite move_zero.
  - destruct xs as [|x xs]; [cbn in Hl; lia|]. inversion Hs; subst. cbn [shift_all]. rewrite shift_defined by assumption. cbn [bind].
    rewrite IH by (assumption || (cbn in Hl; lia)). cbn [combined]. now rewrite move_add.
Qed.

Section Props.
Context (coast : spacecraft -> Z -> res dual_error spacecraft)
        (transform_to : orbit -> nat -> option orbit)
        (partial_for : element -> orbit -> option dual6)
        (bplane : orbit -> option (dual6 * dual6 * dual6))
        (solve : list (list R) -> list R -> option (list R)).
Notation try_achieve := (try_achieve_dual coast transform_to partial_for bplane solve).
Notation iter := (dual_iterate coast transform_to partial_for bplane solve).
Notation reading := (reads_dual partial_for bplane).

Lemma dual_value_reads t o b p x : dual_bplane bplane t o = Ok b -> dual_value partial_for o b p = Ok x -> reading o p x.
Proof.
  unfold dual_bplane. intros Hb Hx.
  assert (Hs : forall y, b = Some y -> bplane o = Some y).
  { intros y ->. destruct (b_plane_target t); [|discriminate]. destruct (bplane o); cbn in Hb; congruence. }
  destruct p; cbn in Hx; try discriminate.
  - constructor. destruct (partial_for e o); cbn in Hx; congruence.
  - destruct b as [[[r s] l]|]; [|discriminate]. injection Hx as <-. econstructor; eauto.
  - destruct b as [[[r s] l]|]; [|discriminate]. injection Hx as <-. econstructor; eauto.
  - destruct b as [[[r s] l]|]; [|discriminate]. injection Hx as <-. econstructor; eauto.
Qed.

Lemma dual_seen t o o' : dual_orbit transform_to t o = Ok o' -> seen transform_to (objective_frame t) o o'.
Proof.
  unfold dual_orbit, seen. destruct (objective_frame t) as [f|]; [|congruence].
  destruct (transform_to o f); cbn; congruence.
Qed.

Lemma dual_assess_met t phi o b : dual_bplane bplane t o = Ok b -> forall objs conv errs jac,
  dual_assess partial_for t phi o b objs = Ok (conv, errs, jac) -> conv = true ->
  Forall2 (fun ob err => exists a g, reading o (obj_parameter ob) (a, g) /\ met ob a err) objs errs.
Proof.
  intros Hb. induction objs as [|ob objs IH]; intros conv errs jac H C.
  - injection H as <- <- <-. constructor.
  - cbn [dual_assess] in H. unb H x Ex. unb H row Er. unb H rest Es. destruct rest as [[ok es] rows].
    subst conv. injection H as H1 <- <-. apply andb_prop in H1 as [H1 ->].
    constructor; [|eapply IH; eauto].
    exists (fst x), (snd x). split; [rewrite <- surjective_pairing; eapply dual_value_reads; eauto|].
    unfold met, assess_value in *. cbn [fst snd] in *.
    split; [reflexivity|]. destruct (Rle_dec _ _); [assumption|discriminate].
Qed.

Lemma with_stm_move sc c : with_stm (move sc c) = move (with_stm sc) c.
Proof. reflexivity. Qed.
Lemma with_stm_twice sc : with_stm (with_stm sc) = with_stm sc.
Proof. reflexivity. Qed.

Lemma limit_all_length : forall vars d d', limit_all vars d = Ok d' -> length d' = length vars.
Proof.
  induction vars as [|v vars IH]; intros [|x d] d' H; cbn [limit_all] in H; try discriminate; try (injection H as <-; reflexivity).
  unb H ds E. injection H as <-. cbn. now rewrite (IH _ _ E).
Qed.

Lemma dual_iterate_spec t start ae : forall left it xi total prev s,
  Forall (fun v => of_state (component v)) (variables t) -> length total = length (variables t) ->
  with_stm xi = with_stm (move start (combined (variables t) total)) ->
  iter t start ae left it xi total prev = Ok s ->
  corrected_state s = move start (combined (variables t) (correction s)) /\
  length (correction s) = length (variables t) /\
  coast (with_stm (corrected_state s)) ae = Ok (achieved_state s) /\
  sol_variables s = variables t /\
  (exists o, seen transform_to (objective_frame t) (sc_orbit (achieved_state s)) o /\
     Forall2 (fun ob err => exists a g, reading o (obj_parameter ob) (a, g) /\ met ob a err) (objectives t) (achieved_errors s)) /\
  (it <= sol_iterations s <= it + left)%nat.
Proof.
  intros left it xi total prev s Hs. revert it xi total prev s.
  induction left as [|left IH]; intros it xi total prev s Hl Hx H; cbn [dual_iterate] in H; rewrite Hx in H;
    unb H xf Ef; (destruct (stm xf) as [phi|]; [|discriminate]); unb H o Eo; unb H b Eb; unb H r Er;
    destruct r as [[conv errs] jac]; destruct conv.
  1,3: rewrite shift_all_defined in H by (assumption || lia); cbn [bind] in H; injection H as <-;
    cbn [corrected_state achieved_state correction sol_variables achieved_errors sol_iterations];
    refine (conj eq_refl (conj Hl (conj Ef (conj eq_refl (conj _ _))))); [exists o|lia];
    split; [now apply dual_seen|eapply dual_assess_met; eauto].
  - destruct (match prev with Some p => _ | None => _ end); [discriminate|].
    destruct (solve jac errs) as [delta|]; [|discriminate]. unb H d Ed. unb H xi' Exi. discriminate.
  - destruct (match prev with Some p => _ | None => _ end); [discriminate|].
    destruct (solve jac errs) as [delta|]; [|discriminate]. unb H d Ed. unb H xi' Exi.
    apply limit_all_length in Ed.
    apply shift_all_state in Exi as (_ & _ & ->).
    apply IH in H; [| rewrite add_lists_length; lia |].
    + destruct H as (A1 & A2 & A3 & A4 & A5 & A6). repeat (split; [assumption|]). lia.
    + rewrite with_stm_move, with_stm_twice, <- with_stm_move, move_add, <- combined_add by lia. reflexivity.
Qed.

(** C84: a solution moves the start by its correction, along the position and velocity only; the
    propagation of the corrected state reaches the achieved state, which meets every objective in
    the frame of the objectives with the errors shown, within the iterations allowed. *)
Theorem C84_solution t initial ce ae s :
  try_achieve t initial ce ae = Ok s ->
  objectives t <> [] /\
  Forall (fun v => of_state (component v)) (variables t) /\
  (sol_iterations s <= iterations t)%nat /\
  sol_variables s = variables t /\ length (correction s) = length (variables t) /\
  (exists start, coast initial ce = Ok start /\ corrected_state s = move start (combined (variables t) (correction s))) /\
  coast (with_stm (corrected_state s)) ae = Ok (achieved_state s) /\
  exists o, seen transform_to (objective_frame t) (sc_orbit (achieved_state s)) o /\
    Forall2 (fun ob err => exists a g, reading o (obj_parameter ob) (a, g) /\ met ob a err) (objectives t) (achieved_errors s).
Proof.
  unfold try_achieve_dual. destruct (objectives t) as [|ob0 obs0] eqn:Eobj; [discriminate|]. rewrite <- Eobj. intros H.
  unb H start Es. unb H xi Exi. apply shift_all_state in Exi as (Hs & _ & ->).
  apply dual_iterate_spec in H; [|assumption|now rewrite map_length|reflexivity].
  destruct H as (A1 & A2 & A3 & A4 & A5 & A6).
  split; [congruence|]. split; [assumption|]. split; [lia|]. split; [assumption|]. split; [assumption|].
  split; [exists start; split; assumption|]. split; assumption.
Qed.

(** The correction of [delta_v] is a change of the velocity alone, that of [delta_r] one of the
    position alone, component by component and in at most a hundred corrections. *)
Theorem C84_delta initial ce ae objs s :
  (try_achieve (delta_v objs) initial ce ae = Ok s ->
   exists start d, coast initial ce = Ok start /\ correction s = [vx d; vy d; vz d] /\ (sol_iterations s <= 100)%nat /\
     radius_km (sc_orbit (corrected_state s)) = radius_km (sc_orbit start) /\
     velocity_km_s (sc_orbit (corrected_state s)) = Vec3.vadd (velocity_km_s (sc_orbit start)) d) /\
  (try_achieve (delta_r objs) initial ce ae = Ok s ->
   exists start d, coast initial ce = Ok start /\ correction s = [vx d; vy d; vz d] /\ (sol_iterations s <= 100)%nat /\
     radius_km (sc_orbit (corrected_state s)) = Vec3.vadd (radius_km (sc_orbit start)) d /\
     velocity_km_s (sc_orbit (corrected_state s)) = velocity_km_s (sc_orbit start)).
Proof.
  split; intros H; apply C84_solution in H as (_ & _ & I & _ & L & (start & E & C) & _);
    destruct (correction s) as [|x [|y [|z [|]]]]; try discriminate L; exists start, (V3 x y z);
    (split; [exact E|]); (split; [reflexivity|]); (split; [exact I|]); rewrite C;
    split; apply v3_eq; cbn; ring.
Qed.

(** The frame of the maneuver is ignored: [vnc] does what [delta_v] does. *)
Lemma iterate_frame ot fr v c c' k n start ae : forall left it xi total prev,
  iter (Targeter ot fr v c k) start ae left it xi total prev = iter (Targeter ot fr v c' n) start ae left it xi total prev.
Proof.
  assert (A : forall phi o b l, dual_assess partial_for (Targeter ot fr v c k) phi o b l =
    dual_assess partial_for (Targeter ot fr v c' n) phi o b l).
  { intros phi o b l. induction l as [|x l IH]; [reflexivity|]. cbn [dual_assess variables]. now rewrite IH. }
  induction left as [|left IH]; intros it xi total prev; cbn [dual_iterate];
    (destruct (coast (with_stm xi) ae) as [xf|x| |]; [|reflexivity..]); cbn [bind];
    (destruct (stm xf) as [phi|]; [|reflexivity]); unfold dual_orbit, dual_bplane, b_plane_target; cbn [objective_frame objectives variables];
    match goal with |- bind ?x _ = _ => destruct x as [o|x0| |]; [|reflexivity..] end; cbn [bind];
    match goal with |- bind ?x _ = _ => destruct x as [b|x0| |]; [|reflexivity..] end; cbn [bind]; rewrite A;
    match goal with |- bind ?x _ = _ => destruct x as [[[cv errs] jac]|x0| |]; [|reflexivity..] end; cbn [bind];
    (destruct cv; [reflexivity|]);
    match goal with |- (if ?c then _ else _) = _ => destruct c; [reflexivity|] end;
    (destruct (solve jac errs) as [delta|]; [|reflexivity]);
    match goal with |- bind ?x _ = _ => destruct x as [delta'|x0| |]; [|reflexivity..] end; cbn [bind];
    match goal with |- bind ?x _ = _ => destruct x as [xi2|x0| |]; [|reflexivity..] end; cbn [bind]; [reflexivity|].
  apply IH.
Qed.
Theorem C84_vnc_refuted vnc_frame initial ce ae objs :
  try_achieve (vnc vnc_frame objs) initial ce ae = try_achieve (delta_v objs) initial ce ae.
Proof.
  unfold vnc, delta_v. generalize 100%nat as n. intros n.
  unfold try_achieve_dual. cbn [objectives variables iterations]. destruct objs as [|ob objs]; [reflexivity|].
  destruct (coast initial ce) as [start|x| |]; [|reflexivity..]. cbn [bind].
  match goal with |- bind ?x _ = _ => destruct x as [xi|x0| |]; [|reflexivity..] end. cbn [bind]. apply iterate_frame.
Qed.

(** ** The Jacobian *)

Lemma dual_row_spec phi g : forall vars row, dual_row phi g vars = Ok row ->
  Forall (fun v => of_state (component v)) vars ->
  row = map (fun v => dot6 g (stm_column phi (block_index (component v)))) vars.
Proof.
  induction vars as [|v vars IH]; intros row H Hs; cbn [dual_row] in H.
  - now injection H as <-.
  - inversion Hs as [|? ? Hv Hs']; subst.
    assert (E : vec_index (component v) = Ok (block_index (component v))).
    { cbn in Hv. destruct Hv as [<-|[<-|[<-|[<-|[<-|[<-|[]]]]]]]; reflexivity. }
    rewrite E in H. unb H r Er. injection H as <-. cbn [map]. f_equal. apply IH; assumption.
Qed.
Lemma dual_row_defined phi g : forall vars, Forall (fun v => of_state (component v)) vars ->
  dual_row phi g vars = Ok (map (fun v => dot6 g (stm_column phi (block_index (component v)))) vars).
Proof.
  induction vars as [|v vars IH]; intros Hs; cbn [dual_row map]; [reflexivity|].
  inversion Hs as [|? ? Hv Hs']; subst.
  assert (E : vec_index (component v) = Ok (block_index (component v))).
  { cbn in Hv. destruct Hv as [<-|[<-|[<-|[<-|[<-|[<-|[]]]]]]]; reflexivity. }
  rewrite E, IH by assumption. reflexivity.
Qed.

Lemma dual_assess_rows t phi o b : dual_bplane bplane t o = Ok b -> Forall (fun v => of_state (component v)) (variables t) ->
  forall objs conv errs jac,
  dual_assess partial_for t phi o b objs = Ok (conv, errs, jac) ->
  Forall2 (fun ob row => exists a g, reading o (obj_parameter ob) (a, g) /\
    row = map (fun v => dot6 g (stm_column phi (block_index (component v)))) (variables t)) objs jac.
Proof.
  intros Hb Hs. induction objs as [|ob objs IH]; intros conv errs jac H.
  - injection H as <- <- <-. constructor.
  - cbn [dual_assess] in H. unb H x Ex. unb H row Er. unb H rest Es. destruct rest as [[ok es] rows].
    injection H as _ _ <-. constructor; [|eapply IH; eauto].
    exists (fst x), (snd x). split; [rewrite <- surjective_pairing; eapply dual_value_reads; eauto|].
    eapply dual_row_spec; eauto.
Qed.

(** What the transition matrix, stored by columns of nine, says of the effect of a component. *)
Definition response (phi : list R) (c : vary) : vec6 :=
  let at_ i := nth i phi 0 in
  match c with
  | PositionX => (V3 (at_ 0%nat) (at_ 1%nat) (at_ 2%nat), V3 (at_ 3%nat) (at_ 4%nat) (at_ 5%nat))
  | PositionY => (V3 (at_ 9%nat) (at_ 10%nat) (at_ 11%nat), V3 (at_ 12%nat) (at_ 13%nat) (at_ 14%nat))
  | PositionZ => (V3 (at_ 18%nat) (at_ 19%nat) (at_ 20%nat), V3 (at_ 21%nat) (at_ 22%nat) (at_ 23%nat))
  | VelocityX => (V3 (at_ 27%nat) (at_ 28%nat) (at_ 29%nat), V3 (at_ 30%nat) (at_ 31%nat) (at_ 32%nat))
  | VelocityY => (V3 (at_ 36%nat) (at_ 37%nat) (at_ 38%nat), V3 (at_ 39%nat) (at_ 40%nat) (at_ 41%nat))
  | VelocityZ => (V3 (at_ 45%nat) (at_ 46%nat) (at_ 47%nat), V3 (at_ 48%nat) (at_ 49%nat) (at_ 50%nat))
  | _ => (vzero, vzero)
  end.
Lemma response_column phi c : of_state c -> stm_column phi (block_index c) = response phi c.
Proof. intros H. cbn in H. destruct H as [<-|[<-|[<-|[<-|[<-|[<-|[]]]]]]]; reflexivity. Qed.

(** C84: without a frame of the objectives, each entry of the Jacobian is the derivative of the value
    of the objective, after the propagation, along the variable at the state that is corrected; given
    that the transition matrix is the derivative of the propagation and that the partials of the
    objectives are right. *)
Theorem C84_jacobian t xi ae xf phi b conv errs jac (after : vary -> R -> spacecraft) (value : parameter -> R -> dual6) :
  objective_frame t = None ->
  Forall (fun v => of_state (component v)) (variables t) ->
  coast (with_stm xi) ae = Ok xf -> stm xf = Some phi ->
  dual_bplane bplane t (sc_orbit xf) = Ok b ->
  dual_assess partial_for t phi (sc_orbit xf) b (objectives t) = Ok (conv, errs, jac) ->
  (* the propagation, and its derivatives *)
  (forall c h, of_state c -> coast (with_stm (move xi (scale6 h (unit6 c)))) ae = Ok (after c h)) ->
  (forall c, of_state c -> moves (fun h => sc_orbit (after c h)) (response phi c)) ->
  (* the partials, along any curve *)
  (forall p x o d u, reading (sc_orbit xf) p x -> o 0 = sc_orbit xf -> moves o d ->
     (forall h, reading (o h) p (u h)) -> is_derive (fun h => fst (u h)) 0 (dot6 (snd x) d)) ->
  forall i j ob v row entry u, nth_error (objectives t) i = Some ob -> nth_error (variables t) j = Some v ->
    nth_error jac i = Some row -> nth_error row j = Some entry ->
    (forall h, reading (sc_orbit (after (component v) h)) (obj_parameter ob) (u h)) ->
    is_derive (fun h => fst (u h)) 0 entry.
Proof.
  intros Hf Hs Hc Hphi Hb Ha Hafter Hflow Hpart i j ob v row entry u Ei Ej Er Ee Hu.
  pose proof (dual_assess_rows t phi _ b Hb Hs _ _ _ _ Ha) as HF.
  assert (Hrow : exists a g, reading (sc_orbit xf) (obj_parameter ob) (a, g) /\
    row = map (fun v => dot6 g (stm_column phi (block_index (component v)))) (variables t)).
  { clear -HF Ei Er. revert i Ei Er. induction HF as [|x y l l' Hxy _ IH]; intros [|i] Ei Er; cbn in *; try discriminate.
    - injection Ei as ->. injection Er as ->. exact Hxy.
    - eapply IH; eauto. }
  destruct Hrow as (a & g & Hread & ->).
  rewrite nth_error_map, Ej in Ee. cbn in Ee. injection Ee as <-.
  assert (Hv : of_state (component v)).
  { rewrite Forall_forall in Hs. apply Hs. eapply nth_error_In; eauto. }
  assert (E0 : sc_orbit (after (component v) 0) = sc_orbit xf).
  { pose proof (Hafter (component v) 0 Hv) as H0.
    replace (scale6 0 (unit6 (component v))) with zero6 in H0
      by (apply vec6_eq; apply v3_eq; cbn; ring).
    rewrite move_zero, Hc in H0. congruence. }
  rewrite (response_column _ _ Hv).
  exact (Hpart (obj_parameter ob) (a, g) (fun h => sc_orbit (after (component v) h)) _ u Hread E0 (Hflow _ Hv) Hu).
Qed.

(** ** One correction *)

(** The parameters of the objectives, after the propagation of the start moved by [c], are
    [base p + lin (slope p) c], and the partials and the transition matrix say so. *)
Definition affine_dual (t : targeter) (start : spacecraft) (ae : Z) (base : parameter -> R) (slope : parameter -> vec6) : Prop :=
  forall c, exists xf phi o, coast (with_stm (move start c)) ae = Ok xf /\ stm xf = Some phi /\
    seen transform_to (objective_frame t) (sc_orbit xf) o /\
    forall ob, In ob (objectives t) -> exists g,
      reading o (obj_parameter ob) (base (obj_parameter ob) + lin (slope (obj_parameter ob)) c, g) /\
      forall v, In v (variables t) ->
        dot6 g (stm_column phi (block_index (component v))) = lin (slope (obj_parameter ob)) (unit6 (component v)).

Lemma reads_dual_value t o b p x : dual_bplane bplane t o = Ok b -> (is_b_plane p = true -> b_plane_target t = true) ->
  reading o p x -> dual_value partial_for o b p = Ok x.
Proof.
  unfold dual_bplane. intros Hb Hp Hr. inversion Hr as [? ? E|? ? ? E|? ? ? E|? ? ? E]; subst; cbn [dual_value];
    try (rewrite E; reflexivity);
    rewrite Hp in Hb by reflexivity; rewrite E in Hb; cbn in Hb; injection Hb as <-; reflexivity.
Qed.
Lemma dual_bplane_defined t o : (forall ob, In ob (objectives t) -> exists x, reading o (obj_parameter ob) x) ->
  exists b, dual_bplane bplane t o = Ok b.
Proof.
  intros H. unfold dual_bplane. destruct (b_plane_target t) eqn:E; [|eauto].
  unfold b_plane_target in E. apply existsb_exists in E as (ob & Hin & Hp). destruct (H _ Hin) as (x & Hr).
  inversion Hr as [? ? E|? ? ? E|? ? ? E|? ? ? E]; rewrite <- ?H0, <- ?H1, <- ?H2 in Hp; try discriminate;
    try (rewrite E; cbn; eauto).
Qed.

Section Affine.
Context (t : targeter) (start : spacecraft) (ae : Z) (base : parameter -> R) (slope : parameter -> vec6).
Context (Haff : affine_dual t start ae base slope) (Hs : Forall (fun v => of_state (component v)) (variables t)).

Lemma dual_assessed c phi o b :
  dual_bplane bplane t o = Ok b ->
  (forall ob, In ob (objectives t) -> exists g,
      reading o (obj_parameter ob) (base (obj_parameter ob) + lin (slope (obj_parameter ob)) c, g) /\
      forall v, In v (variables t) ->
        dot6 g (stm_column phi (block_index (component v))) = lin (slope (obj_parameter ob)) (unit6 (component v))) ->
  dual_assess partial_for t phi o b (objectives t)
  = Ok (all_met t base slope c, map (scaled_error base slope c) (objectives t), true_jacobian t slope).
Proof.
  intros Hb H. unfold all_met, true_jacobian.
  assert (Hsub : incl (objectives t) (objectives t)) by apply incl_refl. revert Hsub.
  generalize (objectives t) at 1 3 4 5 6 as objs. induction objs as [|ob objs IH]; intros Hsub; [reflexivity|].
  cbn [dual_assess]. assert (Hin : In ob (objectives t)) by (apply Hsub; now left).
  destruct (H _ Hin) as (g & Hr & Hg).
  rewrite (reads_dual_value t o b _ _ Hb (fun Hp => proj2 (existsb_exists _ _) (ex_intro _ ob (conj Hin Hp))) Hr). cbn [bind fst snd].
  rewrite dual_row_defined by assumption. cbn [bind].
  rewrite IH by (intros x Hx; apply Hsub; now right). cbn [bind assess_value fst snd map forallb].
  rewrite (map_ext_in _ (fun v => lin (slope (obj_parameter ob)) (unit6 (component v))) (variables t)) by exact Hg.
  reflexivity.
Qed.

Lemma dual_tried c : exists xf phi o b, coast (with_stm (move start c)) ae = Ok xf /\ stm xf = Some phi /\
  dual_orbit transform_to t (sc_orbit xf) = Ok o /\ dual_bplane bplane t o = Ok b /\
  dual_assess partial_for t phi o b (objectives t)
  = Ok (all_met t base slope c, map (scaled_error base slope c) (objectives t), true_jacobian t slope).
Proof.
  destruct (Haff c) as (xf & phi & o & H1 & H2 & H3 & H4).
  destruct (dual_bplane_defined t o) as (b & Hb).
  { intros ob Hin. destruct (H4 _ Hin) as (g & Hr & _). eauto. }
  exists xf, phi, o, b. split; [assumption|]. split; [assumption|]. split.
  { unfold dual_orbit, seen in *. destruct (objective_frame t); [|congruence]. rewrite H3. reflexivity. }
  split; [assumption|]. now apply dual_assessed.
Qed.

Lemma dual_iteration_met left it total xi prev : length total = length (variables t) ->
  with_stm xi = with_stm (move start (combined (variables t) total)) ->
  all_met t base slope (combined (variables t) total) = true ->
  exists s, iter t start ae left it xi total prev = Ok s /\ sol_iterations s = it /\ correction s = total.
Proof.
  intros Hl Hx Hm. destruct (dual_tried (combined (variables t) total)) as (xf & phi & o & b & H1 & H2 & H3 & H4 & H5).
  eexists. destruct left; cbn [dual_iterate]; rewrite Hx, H1; cbn [bind]; rewrite H2, H3; cbn [bind]; rewrite H4; cbn [bind];
    rewrite H5; cbn [bind]; rewrite Hm, shift_all_defined by (assumption || lia); cbn [bind];
    (split; [reflexivity|]); split; reflexivity.
Qed.

Lemma limit_all_unbounded : forall vars d, Forall2 unbounded vars d -> limit_all vars d = Ok d.
Proof.
  induction 1 as [|v x vars d [H1 H2] _ IH]; [reflexivity|]. cbn [limit_all]. rewrite IH. cbn [bind]. f_equal. f_equal.
  unfold limit_dual. destruct (Rlt_dec _ _); [lra|]. destruct (Rlt_dec _ _); [lra|]. destruct (Rlt_dec _ _); [lra|reflexivity].
Qed.
End Affine.

(** C84: when the objectives are affine in the corrections of the state, have a factor of 1, and the
    correction is within the bounds, one correction is enough, and the solution meets the objectives
    exactly if it took one. *)
Theorem C84_one_correction t initial start ce ae base slope :
  coast initial ce = Ok start ->
  affine_dual t start ae base slope ->
  objectives t <> [] -> (1 <= iterations t)%nat ->
  Forall (fun v => of_state (component v)) (variables t) ->
  Forall (fun ob => multiplicative_factor ob = 1 /\ 0 <= obj_tolerance ob) (objectives t) ->
  (forall e, length e = length (objectives t) ->
    exists d, solve (true_jacobian t slope) e = Some d /\ length d = length (variables t) /\
      map (fun row => rdot row d) (true_jacobian t slope) = e) ->
  (forall d, solve (true_jacobian t slope) (map (scaled_error base slope (combined (variables t) (map init_guess (variables t)))) (objectives t)) = Some d ->
    Forall2 unbounded (variables t) d) ->
  exists s, try_achieve t initial ce ae = Ok s /\
    (sol_iterations s <= 1)%nat /\
    (sol_iterations s = 1%nat -> forall ob, In ob (objectives t) -> scaled_error base slope (combined (variables t) (correction s)) ob = 0).
Proof.
  intros Hi Ha Hne Hit Hs Hfac Hsol Hb.
  set (g := map init_guess (variables t)) in *. set (c0 := combined (variables t) g) in *.
  assert (Hg : length g = length (variables t)) by (unfold g; now rewrite map_length).
  unfold try_achieve_dual. destruct (objectives t) as [|ob0 obs0] eqn:Eobj; [congruence|]. rewrite <- Eobj in *.
  rewrite Hi. cbn [bind]. fold g. rewrite shift_all_defined by (assumption || lia). cbn [bind]. fold c0.
  destruct (iterations t) as [|n]; [lia|].
  destruct (all_met t base slope c0) eqn:Hm.
  - destruct (dual_iteration_met t start ae base slope Ha Hs (S n) 0 g (move start c0) None Hg eq_refl Hm) as (s & E & S1 & S2).
    exists s. split; [exact E|]. rewrite S1. split; [lia|discriminate].
  - destruct (Hsol (map (scaled_error base slope c0) (objectives t))) as (d & D1 & D2 & D3); [now rewrite map_length|].
    destruct (dual_tried t start ae base slope Ha Hs c0) as (xf & phi & o & b & H1 & H2 & H3 & H4 & H5).
    cbn [dual_iterate]. rewrite H1. cbn [bind]. rewrite H2, H3. cbn [bind]. rewrite H4. cbn [bind]. rewrite H5. cbn [bind].
    rewrite Hm, D1, (limit_all_unbounded _ _ (Hb _ D1)). cbn [bind]. rewrite shift_all_defined by (assumption || lia). cbn [bind].
    assert (Hz : forall ob, In ob (objectives t) -> scaled_error base slope (combined (variables t) (add_lists g d)) ob = 0).
    { intros ob Hin. rewrite combined_add by lia. fold c0.
      rewrite (step_errors t base slope c0 d D2 D3 ob Hin). rewrite Forall_forall in Hfac. destruct (Hfac _ Hin) as [-> _]. ring. }
    assert (Hm' : all_met t base slope (combined (variables t) (add_lists g d)) = true).
    { unfold all_met. apply forallb_forall. intros ob Hin. rewrite (Hz _ Hin), Rabs_R0.
      rewrite Forall_forall in Hfac. destruct (Hfac _ Hin) as [_ ?]. destruct (Rle_dec _ _); [reflexivity|contradiction]. }
    destruct (dual_iteration_met t start ae base slope Ha Hs n 1 (add_lists g d)
      (move (with_stm (move start c0)) (combined (variables t) d))
      (Some (list_norm (map (scaled_error base slope c0) (objectives t)))) ltac:(rewrite add_lists_length; lia)) as (s & E & S1 & S2); [|exact Hm'|].
    + rewrite combined_add by lia. fold c0. rewrite <- move_add. reflexivity.
    + exists s. split; [exact E|]. rewrite S1, S2. split; [lia|]. auto.
Qed.
End Props.

(** C84: each correction is at most the maximum step of its variable, when the bounds of the
    variable are of opposite signs and the step is positive. *)
Theorem C84_step v d : 0 <= max_step v -> min_value v <= 0 <= max_value v ->
  Rabs (limit_dual v d) <= max_step v /\ 0 <= limit_dual v d * d /\ Rabs (limit_dual v d) <= Rabs d.
Proof.
  intros Hs Hb. unfold limit_dual, fsignum.
  destruct (Rlt_dec _ _) as [H1|H1]; [destruct (Rlt_dec d 0) as [H2|H2]|destruct (Rlt_dec _ _) as [H2|H2]; [|destruct (Rlt_dec _ _) as [H3|H3]]].
  - rewrite (Rabs_left d) in * by lra. rewrite Rabs_left1 by lra. nra.
  - rewrite (Rabs_right d) in * by lra. rewrite Rabs_right by lra. nra.
  - rewrite (Rabs_right d) in * by lra. rewrite Rabs_right by lra. nra.
  - rewrite (Rabs_left d) in * by lra. rewrite Rabs_left1 by lra. nra.
  - split; [lra|]. split; [nra|lra].
Qed.

Print Assumptions C84_solution.
Print Assumptions C84_delta.
Print Assumptions C84_vnc_refuted.
Print Assumptions C84_jacobian.
Print Assumptions C84_one_correction.
Print Assumptions C84_step.
