(** Theorems about sensitivities and observables (C59 to C62); [Sens_Filter] has the effect of an
    absent observable on the filter. *)
From Coq Require Import Reals Lra Psatz.
From Verif Require Import Base Arc_Model Vec3 Sens_Model Sens_Spec Sens_Matrix Sens_Proofs.
Local Open Scope R_scope.

(** ** C59.  The row of an observable that is present is its sensitivity, for any device. *)
Theorem C59_present :
  forall (De : Type) m (row : msr_type -> res De (list R)) d types h j t,
    h_tilde 0 1 m row (available d) types = Ok h ->
    nth_error types j = Some t -> get t d <> None -> (j < m)%nat ->
    exists r, row t = Ok r /\ nth_error h j = Some r.
Proof.
  intros De m row d types h j t H Ht Hd Hj. apply h_tilde_spec in H as (_ & H).
  specialize (H j Hj). rewrite Ht in H. unfold available in H.
  destruct (get t d); [exact H|congruence].
Qed.
Print Assumptions C59_present.

(** Rows of absent observables, and those beyond the observables, are not null: they are rows of
    the identity matrix, that is, the sensitivity of a component of the position. *)
Theorem C59_absent_refuted :
  forall (De : Type) m (row : msr_type -> res De (list R)) d types h j,
    h_tilde 0 1 m row (available d) types = Ok h ->
    (j < m)%nat -> (j < 9)%nat ->
    (forall t, nth_error types j = Some t -> get t d = None) ->
    exists r, nth_error h j = Some r /\ length r = 9%nat /\
      forall k, (k < 9)%nat -> nth k r 0 = if Nat.eqb k j then 1 else 0.
Proof.
  intros De m row d types h j H Hj H9 Ha. apply h_tilde_spec in H as (_ & H).
  specialize (H j Hj). exists (identity_row 0 1 j). split.
  - destruct (nth_error types j) as [t|]; [|exact H].
    unfold available in H. now rewrite (Ha t eq_refl) in H.
  - split; [reflexivity|]. intros k Hk. rewrite Nat.eqb_sym.
    destruct (nine_cases k Hk) as [->|[->|[->|[->|[->|[->|[->|[->| ->]]]]]]]]; reflexivity.
Qed.
Print Assumptions C59_absent_refuted.

(** A ground station tracking range and Doppler, of which a measurement only has the range; and a
    station of three observables whose second pair is incomplete. *)
Definition demo_link : link := {| delta_r := V3 3 4 0; delta_v := V3 0 1 0 |}.
Definition demo_data : data := [(Range, 5)].
Example C59_example :
  exists h, h_tilde 0 1 2 (gs_row demo_link 5 demo_data) (available demo_data) [Range; Doppler] = Ok h /\
    nth_error h 0 = Some [3 / 5; 4 / 5; 0 / 5; 0; 0; 0; 0; 0; 0] /\
    nth_error h 1 = Some [0; 1; 0; 0; 0; 0; 0; 0; 0].
Proof. eexists. repeat split; reflexivity. Qed.
Example C59_incomplete_example :
  exists h, h_tilde 0 1 2 (gs_row demo_link 5 [(Elevation, 10)]) (available [(Elevation, 10)])
              [Elevation] = Ok h /\
    nth_error h 1 = Some [0; 1; 0; 0; 0; 0; 0; 0; 0].
Proof. eexists. repeat split; reflexivity. Qed.

(** ** C60.  Ground station, range and Doppler: the row is the gradient when the measured value is
    the computed one.  For other measured values the gradient is scaled by the ratio of the
    computed range to the measured one; the Doppler row is off along the line of sight. *)
Theorem C60_range :
  forall tr tv p rho d, length p = 9%nat -> vsub (pos p) tr <> vzero ->
    get Range d = Some rho -> rho <> 0 ->
    exists row g,
      gs_row {| delta_r := vsub (pos p) tr; delta_v := vsub (vel p) tv |} (range tr p) d Range = Ok row /\
      gradient (range tr) p g /\ row = map (Rmult (range tr p / rho)) g.
Proof.
  intros tr tv p rho d Hl Hz Hd Hrho. do 2 eexists. split; [|split; [now apply range_gradient|]].
  - cbn [gs_row]. rewrite Hd. reflexivity.
  - pose proof (norm_pos _ Hz) as Hn. unfold range, range_row. cbn [map delta_r].
    repeat apply (f_equal2 cons); try reflexivity; try (field; lra); ring.
Qed.
Print Assumptions C60_range.

Theorem C60_doppler :
  forall tr tv p rate d, length p = 9%nat -> vsub (pos p) tr <> vzero ->
    get Doppler d = Some rate ->
    exists row g,
      gs_row {| delta_r := vsub (pos p) tr; delta_v := vsub (vel p) tv |} (range tr p) d Doppler = Ok row /\
      gradient (range_rate tr tv) p g /\
      (rate = range_rate tr tv p -> row = g) /\
      forall k, (k < 9)%nat ->
        nth k row 0 = nth k g 0 + (range_rate tr tv p - rate) / range tr p ^ 2
                                  * nth k [vx (vsub (pos p) tr); vy (vsub (pos p) tr); vz (vsub (pos p) tr)] 0.
Proof.
  intros tr tv p rate d Hl Hz Hd. do 2 eexists. split; [|split; [now apply doppler_gradient|]].
  - cbn [gs_row]. rewrite Hd. reflexivity.
  - split; [now intros ->|]. intros k Hk. pose proof (norm_pos _ Hz) as Hn.
    unfold range, doppler_row in *. cbn [delta_r delta_v].
    destruct (nine_cases k Hk) as [->|[->|[->|[->|[->|[->|[->|[->| ->]]]]]]]]; cbn [nth];
      try (field; lra).
Qed.
Print Assumptions C60_doppler.

(** So a noisy range has a row that is not the derivative of the range. *)
Definition demo_state : list R := [3; 4; 0; 0; 1; 0; 0; 0; 0].
Lemma demo_range : range vzero demo_state = 5.
Proof.
  unfold range, norm, dot. cbn. replace ((3 - 0) * (3 - 0) + (4 - 0) * (4 - 0) + (0 - 0) * (0 - 0)) with (5 * 5) by ring.
  apply sqrt_square. lra.
Qed.
Lemma demo_apart : vsub (pos demo_state) vzero <> vzero.
Proof. cbn. intros [= H _ _]. lra. Qed.
Example C60_example :
  exists row, gs_row {| delta_r := vsub (pos demo_state) vzero; delta_v := vel demo_state |}
                (range vzero demo_state) demo_data Range = Ok row /\
    gradient (range vzero) demo_state row.
Proof.
  destruct (C60_range vzero vzero demo_state 5 demo_data eq_refl demo_apart eq_refl ltac:(lra))
    as (row & g & H1 & H2 & H3).
  rewrite demo_range in H3. exists g. split; [|exact H2].
  replace (vel demo_state) with (vsub (vel demo_state) vzero)
    by (cbn; apply v3_eq; cbn; ring).
  rewrite H1, H3. f_equal. replace (5 / 5) with 1 by field.
  rewrite <- (map_id g) at 2. apply map_ext. intros. ring.
Qed.
Theorem C60_measured_refuted :
  exists p tr d row, length p = 9%nat /\ vsub (pos p) tr <> vzero /\ 0 < range tr p /\
    get Range d = Some (2 * range tr p) /\
    gs_row {| delta_r := vsub (pos p) tr; delta_v := vel p |} (range tr p) d Range = Ok row /\
    ~ gradient (range tr) p row.
Proof.
  exists demo_state, vzero, [(Range, 2 * range vzero demo_state)].
  eexists. split; [reflexivity|]. split; [exact demo_apart|].
  split; [rewrite demo_range; lra|]. split; [reflexivity|]. split; [reflexivity|].
  intros H.
  pose proof (gradient_unique _ _ _ _ H (range_gradient vzero demo_state eq_refl demo_apart)) as E.
  unfold range_row in E. rewrite demo_range in E. apply (f_equal (fun l => nth 0 l 0)) in E.
  cbn [nth] in E. cbn [delta_r demo_state pos vsub vx vzero nth] in E. lra.
Qed.
Print Assumptions C60_measured_refuted.

(** Elevation: for a station whose zenith is the third axis of the estimation frame the row is the
    gradient in radians, but the observable is in degrees. *)
Theorem C60_elevation_partial :
  forall tr tv p range_km d, length p = 9%nat ->
    0 < vx (vsub (pos p) tr) ^ 2 + vy (vsub (pos p) tr) ^ 2 ->
    exists row,
      gs_row {| delta_r := vsub (pos p) tr; delta_v := tv |} range_km d Elevation = Ok row /\
      gradient (elevation axis_z tr) p row /\
      gradient (fun q => degrees (elevation axis_z tr q)) p (map (Rmult (180 / PI)) row).
Proof.
  intros tr tv p rg d Hl Hxy. eexists. split; [reflexivity|].
  pose proof (elevation_gradient tr p Hl Hxy) as H. split; [exact H|].
  apply (gradient_scale (elevation axis_z tr)), H.
Qed.
Print Assumptions C60_elevation_partial.

Lemma degree_not_radian : 180 / PI <> 1.
Proof.
  pose proof PI_RGT_0. pose proof PI_4. intros H1.
  assert (180 = PI) by (apply (f_equal (fun x => x * PI)) in H1; unfold Rdiv in H1;
    rewrite Rmult_assoc, Rinv_l in H1; lra). lra.
Qed.

Theorem C60_elevation_refuted :
  exists p tr row, length p = 9%nat /\
    gs_row {| delta_r := vsub (pos p) tr; delta_v := vel p |} (range tr p) [] Elevation = Ok row /\
    ~ gradient (fun q => degrees (elevation axis_z tr q)) p row.
Proof.
  exists demo_state, vzero. eexists. split; [reflexivity|]. split; [reflexivity|].
  assert (Hxy : 0 < vx (vsub (pos demo_state) vzero) ^ 2 + vy (vsub (pos demo_state) vzero) ^ 2)
    by (cbn; lra).
  destruct (C60_elevation_partial vzero (vel demo_state) demo_state 0 [] eq_refl Hxy)
    as (row & H1 & _ & H2).
  cbn [gs_row] in H1. injection H1 as <-. intros H.
  pose proof (gradient_unique _ _ _ _ H H2) as E.
  apply (f_equal (fun l => nth 2 l 0)) in E. unfold elevation_row in E. cbn [map nth delta_r] in E.
  set (k := sqrt _ / _) in E.
  assert (Hk : 0 < k).
  { unfold k. apply Rmult_lt_0_compat.
    - apply sqrt_lt_R0. exact Hxy.
    - apply Rinv_0_lt_compat, pow_lt, norm_pos, demo_apart. }
  apply degree_not_radian. clearbody k.
  apply (Rmult_eq_reg_r k); lra.
Qed.
Print Assumptions C60_elevation_refuted.

(** Azimuth: with the same zenith, south along the first axis and east along the second, the row is
    the opposite of the gradient in radians. *)
Theorem C60_azimuth_refuted :
  (forall tr tv p range_km d, length p = 9%nat -> vx (vsub (pos p) tr) < 0 ->
     exists row,
       gs_row {| delta_r := vsub (pos p) tr; delta_v := tv |} range_km d Azimuth = Ok row /\
       gradient (azimuth (opposite axis_x) axis_y tr) p (map Ropp row)) /\
  exists p tr row, length p = 9%nat /\
    gs_row {| delta_r := vsub (pos p) tr; delta_v := vel p |} (range tr p) [] Azimuth = Ok row /\
    ~ gradient (azimuth (opposite axis_x) axis_y tr) p row /\
    ~ gradient (fun q => degrees (azimuth (opposite axis_x) axis_y tr q)) p row.
Proof.
  assert (G : forall tr tv p range_km d, length p = 9%nat -> vx (vsub (pos p) tr) < 0 ->
     exists row,
       gs_row {| delta_r := vsub (pos p) tr; delta_v := tv |} range_km d Azimuth = Ok row /\
       gradient (azimuth (opposite axis_x) axis_y tr) p (map Ropp row)).
  { intros. eexists. split; [reflexivity|]. now apply (azimuth_gradient tr p). }
  split; [exact G|].
  exists [-1; 0; 0; 0; 0; 0; 0; 0; 0], vzero.
  destruct (G vzero vzero [-1; 0; 0; 0; 0; 0; 0; 0; 0] 0 [] eq_refl) as (row & H1 & H2);
    [cbn; lra|].
  exists row. split; [reflexivity|]. split; [exact H1|].
  cbn [gs_row] in H1. injection H1 as <-.
  unfold azimuth_row in *. cbn [map delta_r pos vsub nth vx vy vz vzero] in *.
  replace ((-1 - 0) / ((-1 - 0) ^ 2 + (0 - 0) ^ 2)) with (-1) in * by field.
  pose proof PI_RGT_0 as Hpi. split; intros H.
  - pose proof (gradient_unique _ _ _ _ H H2) as E. apply (f_equal (fun l => nth 1 l 0)) in E.
    cbn [nth] in E. lra.
  - pose proof (gradient_unique _ _ _ _ H (gradient_scale _ _ _ (180 / PI) H2)) as E.
    apply (f_equal (fun l => nth 1 l 0)) in E. cbn [nth map] in E.
    assert (0 < 180 / PI) by (apply Rmult_lt_0_compat; [lra|now apply Rinv_0_lt_compat]). lra.
Qed.
Print Assumptions C60_azimuth_refuted.

(** Between spacecraft: the rows are the gradients when the measured range and range rate are the
    computed ones; Doppler alone is an error. *)
Theorem C60_interlink_partial :
  forall tr tv p d, length p = 9%nat -> vsub (pos p) tr <> vzero ->
    get Range d = Some (range tr p) ->
    (exists row, il_row {| delta_r := vsub (pos p) tr; delta_v := vsub (vel p) tv |} d Range = Ok row /\
                 gradient (range tr) p row) /\
    (get Doppler d = Some (range_rate tr tv p) ->
     exists row, il_row {| delta_r := vsub (pos p) tr; delta_v := vsub (vel p) tv |} d Doppler = Ok row /\
                 gradient (range_rate tr tv) p row).
Proof.
  intros tr tv p d Hl Hz Hr. split.
  - eexists. cbn [il_row]. rewrite Hr. split; [reflexivity|]. now apply range_gradient.
  - intros Hd. eexists. cbn [il_row]. rewrite Hr, Hd. split; [reflexivity|]. now apply doppler_gradient.
Qed.
Print Assumptions C60_interlink_partial.
Example C60_interlink_example :
  exists row, il_row {| delta_r := vsub (pos demo_state) vzero; delta_v := vsub (vel demo_state) vzero |}
    [(Range, range vzero demo_state); (Doppler, range_rate vzero vzero demo_state)] Doppler = Ok row /\
    gradient (range_rate vzero vzero) demo_state row.
Proof.
  apply (C60_interlink_partial vzero vzero demo_state
    [(Range, range vzero demo_state); (Doppler, range_rate vzero vzero demo_state)]
    eq_refl demo_apart eq_refl). reflexivity.
Qed.

Theorem C60_interlink_doppler_refuted :
  forall l rate, il_row l [(Doppler, rate)] Doppler = Err (Missing Range).
Proof. reflexivity. Qed.
Print Assumptions C60_interlink_doppler_refuted.

(** ** C61.  Range rate of a link.  It is the derivative of the range of a transmitter at rest, or
    moving across the line of sight. *)
Theorem C61_rate_partial :
  forall rx tx t rv tv, moves rx t rv -> moves tx t tv -> vsub (rx t) (tx t) <> vzero ->
    dot (vsub (rx t) (tx t)) tv = 0 ->
    exists rate, il_value (rx t) rv (tx t) Doppler = Ok rate /\
      derivable_pt_lim (fun s => match il_value (rx s) rv (tx s) Range with Ok x => x | _ => 0 end) t rate.
Proof.
  intros rx tx t rv tv Hr Ht Hz H0. eexists. split; [reflexivity|]. cbn [il_value].
  replace (dot (vsub (rx t) (tx t)) rv) with (dot (vsub (rx t) (tx t)) (vsub rv tv)).
  - now apply distance_rate.
  - transitivity (dot (vsub (rx t) (tx t)) rv - dot (vsub (rx t) (tx t)) tv).
    + unfold dot, vsub. cbn. ring.
    + rewrite H0. ring.
Qed.
Print Assumptions C61_rate_partial.

(** Two spacecraft following each other at one kilometer per second: their range does not change. *)
Definition leader (t : R) : v3 := V3 (10 + t) 0 0.
Definition follower (t : R) : v3 := V3 t 0 0.
Lemma moves_line (a : R) t : moves (fun s => V3 (a + s) 0 0) t (V3 1 0 0).
Proof.
  unfold moves. cbn [vx vy vz]. split; [|split].
  - replace 1 with (0 + 1) by ring. apply derivable_pt_lim_plus.
    + apply derivable_pt_lim_const.
    + apply derivable_pt_lim_id.
  - apply derivable_pt_lim_const.
  - apply derivable_pt_lim_const.
Qed.
Theorem C61_rate_refuted :
  exists rx tx v rate, (forall t, moves rx t v) /\ (forall t, moves tx t v) /\
    il_value (rx 0) v (tx 0) Doppler = Ok rate /\
    derivable_pt_lim (fun s => match il_value (rx s) v (tx s) Range with Ok x => x | _ => 0 end) 0 0 /\
    rate = 1.
Proof.
  exists (fun s => V3 (10 + s) 0 0), (fun s => V3 (0 + s) 0 0), (V3 1 0 0), 1.
  split; [apply moves_line|]. split; [apply moves_line|].
  assert (N : forall s, norm (vsub (V3 (10 + s) 0 0) (V3 (0 + s) 0 0)) = 10).
  { intros s. unfold norm, dot, vsub. cbn [vx vy vz].
    replace ((10 + s - (0 + s)) * (10 + s - (0 + s)) + (0 - 0) * (0 - 0) + (0 - 0) * (0 - 0))
      with (10 * 10) by ring. apply sqrt_square. lra. }
  split; [|split; [|reflexivity]].
  - cbn [il_value]. rewrite N. f_equal. unfold dot, vsub. cbn [vx vy vz]. field.
  - cbn [il_value]. intros eps He. exists (mkposreal 1 Rlt_0_1). intros h Hh _.
    rewrite !N. replace ((10 - 10) / h - 0) with 0 by (field; exact Hh). rewrite Rabs_R0. exact He.
Qed.
Print Assumptions C61_rate_refuted.
Example C61_example :
  exists rate, il_value (leader 0) (V3 1 0 0) vzero Doppler = Ok rate /\
    derivable_pt_lim (fun s => match il_value (leader s) (V3 1 0 0) vzero Range with Ok x => x | _ => 0 end) 0 rate.
Proof.
  apply (C61_rate_partial leader (fun _ => vzero) 0 (V3 1 0 0) vzero).
  - apply (moves_line 10).
  - repeat split; apply derivable_pt_lim_const.
  - unfold leader, vsub. cbn. intros [= H]. lra.
  - unfold dot. cbn. ring.
Qed.

(** ** C62.  Two-way observables are between those of both ends. *)
Definition of_type (t : msr_type) (a : aer) : option R :=
  match t with
  | Range => Some (range_km a) | Doppler => Some (rate_km_s a)
  | Azimuth => Some (az_deg a) | Elevation => Some (el_deg a)
  | _ => None
  end.
Theorem C62_two_way :
  forall t a0 a1 x0 x1, of_type t a0 = Some x0 -> of_type t a1 = Some x1 ->
    compute_one_way t a0 0 = Ok x0 /\
    exists y, compute_two_way t a0 a1 0 = Ok y /\ Rmin x0 x1 <= y <= Rmax x0 x1 /\
      compute_two_way t a1 a0 0 = Ok y.
Proof.
  intros t a0 a1 x0 x1 H0 H1.
  assert (Hb : forall u v, Rmin u v <= (v + u) * / 2 + 0 / sqrt 2 <= Rmax u v).
  { intros u v. unfold Rdiv. rewrite Rmult_0_l. pose proof (Rmin_l u v). pose proof (Rmin_r u v).
    pose proof (Rmax_l u v). pose proof (Rmax_r u v). lra. }
  destruct t; try discriminate; injection H0 as <-; injection H1 as <-; cbn [compute_one_way];
    (split; [f_equal; ring|]); eexists; (split; [reflexivity|]); (split; [apply Hb|]);
    cbn [compute_two_way]; f_equal; ring.
Qed.
Print Assumptions C62_two_way.
Definition demo_aer (az : R) : aer := {| az_deg := az; el_deg := 45; range_km := 1000; rate_km_s := 1 |}.
Example C62_example :
  exists y, compute_two_way Azimuth (demo_aer 10) (demo_aer 30) 0 = Ok y /\ 10 <= y <= 30.
Proof.
  destruct (C62_two_way Azimuth (demo_aer 10) (demo_aer 30) 10 30 eq_refl eq_refl)
    as (_ & y & H & Hy & _). exists y. split; [exact H|].
  unfold Rmin, Rmax in Hy. destruct (Rle_dec 10 30); lra.
Qed.

(** Across north, from 359 to 1 degree, the azimuth is reported due south. *)
Theorem C62_azimuth_refuted :
  compute_two_way Azimuth (demo_aer 359) (demo_aer 1) 0 = Ok 180.
Proof. cbn [compute_two_way demo_aer az_deg]. f_equal. unfold Rdiv. rewrite Rmult_0_l. lra. Qed.
Print Assumptions C62_azimuth_refuted.

(** Noise: a one-way observable has all of it, a two-way observable all of it divided by the root
    of two, a constant bias included. *)
Theorem C62_noise :
  forall t a0 a1 x0 w, of_type t a0 = Some x0 -> of_type t a1 <> None ->
    compute_one_way t a0 w = Ok (x0 + w) /\
    exists y, compute_two_way t a0 a1 0 = Ok y /\ compute_two_way t a0 a1 w = Ok (y + w / sqrt 2).
Proof.
  intros t a0 a1 x0 w H0 H1.
  destruct t; try discriminate; injection H0 as <-; (split; [reflexivity|]); eexists;
    (split; [reflexivity|]); cbn [compute_two_way]; f_equal; unfold Rdiv; ring.
Qed.
Print Assumptions C62_noise.
