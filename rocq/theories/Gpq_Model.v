(** Model of the parquet export of the solutions of ground assets: [to_parquet] of
    nyx-core/src/od/groundpnt/solution.rs.

    The names of the columns are represented by what their format strings print.  The file, its
    metadata and the log messages are not modelled; residuals and columns are those of Spq_Model
    and Pq_Model. *)
From Coq Require Import Reals String.
From Verif Require Import Base Arc_Model Vec3 Gnd_Model Pq_Model Spq_Model.
Local Open Scope R_scope.

(** The coordinates exported: latitude, longitude, altitude (0, 1, 2). *)
Inductive gkey :=
| GEpoch                                 (* "Epoch (UTC)" *)
| GValue (i : nat)                       (* "Latitude (deg)", "Longitude (deg)", "Height (km)" *)
| GSigma (i : nat)                       (* "Sigma {i}" *)
| GCov (i j : nat)                       (* "Covariance {i}*{j} ({frame}) ({unit})" *)
| GPrefit (t : msr_type) | GPostfit (t : msr_type) | GNoise (t : msr_type)
| GReal (t : msr_type) | GComputed (t : msr_type)
| GRatio | GRejected | GTracker
| GGain (i : nat) (t : msr_type)         (* "Gain {i}*{t} ({unit}*{unit}*{unit})" *)
| GFsr (i : nat).                        (* "Filter-smoother ratio {i} ({unit}*{unit})" *)

(** kfestimate.rs [KfEstimate] of an asset, and its [state] (estimate/mod.rs:54-56) *)
Record gestimate := { g_nominal : asset; g_deviation : nat -> R; g_covar : nat -> nat -> R }.
Definition g_state (e : gestimate) : asset := add6 (g_nominal e) (g_deviation e).

(** process/solution/mod.rs:63-89 *)
Record gsolution := {
  g_estimates : list gestimate; g_residuals : list (option residual); g_gains : list (option (nat -> nat -> R));
  g_ratios : list (option (nat -> R)); g_types : list msr_type
}.

(** groundpnt/mod.rs:373-380 and 437-443: the values of the three parameters exported. *)
Definition g_value (i : nat) (s : asset) : R :=
  match i with O => lat_deg s | 1%nat => lon_deg s | _ => height_km s end.

(** solution.rs:276-301 *)
Definition g_selected (cfg : export_cfg) (s : gsolution) (first last : gestimate)
  : list gestimate * list (option residual) :=
  match start_epoch cfg, end_epoch cfg, step cfg with
  | None, None, None => (g_estimates s, g_residuals s)
  | _, _, _ =>
      let at_ e := asset_epoch (g_state e) in
      let lo := match start_epoch cfg with Some t => t | None => at_ first end in
      let hi := match end_epoch cfg with Some t => t | None => at_ last end in
      let l := filter (fun er => (lo <=? at_ (fst er))%Z && (at_ (fst er) <=? hi)%Z) (combine (g_estimates s) (g_residuals s)) in
      (map fst l, map snd l)
  end.

(** The pairs of [for i in 0..3 { for j in i..3 }]. *)
Definition g_upper : list (nat * nat) := [(0, 0); (0, 1); (0, 2); (1, 1); (1, 2); (2, 2)]%nat.

(** solution.rs:115-269: the names, with whether they are nullable; a gain per observable. *)
Definition g_headers (types : list msr_type) : list (gkey * bool) :=
  let nullable l := map (fun k => (k, true)) l in
  let plain l := map (fun k => (k, false)) l in
  plain (GEpoch :: map GValue [0; 1; 2]%nat ++ map GSigma [0; 1; 2]%nat ++ map (fun ij => GCov (fst ij) (snd ij)) g_upper)
  ++ nullable (map GPrefit types ++ map GPostfit types ++ map GNoise types ++ map GReal types ++ map GComputed types
       ++ [GRatio; GRejected; GTracker]
       ++ flat_map (fun i => map (GGain i) types) [0; 1; 2]%nat ++ map GFsr [0; 1; 2]%nat).

(** solution.rs:303-472: the columns; two gains per coordinate. *)
Definition g_columns (show : Z -> string) (s : gsolution) (ests : list gestimate) (resids : list (option residual)) : list column :=
  let each v := map (fun t => Floats (over (fun r => by_type v r t) resids)) (g_types s) in
  [Text (map (fun e => Some (show (asset_epoch (g_state e)))) ests)]
  ++ map (fun i => Floats (map (fun e => Some (g_value i (g_state e))) ests)) [0; 1; 2]%nat
  ++ map (fun i => Floats (map (fun e => Some (sqrt (g_covar e i i))) ests)) [0; 1; 2]%nat
  ++ map (fun ij => Floats (map (fun e => Some (g_covar e (fst ij) (snd ij))) ests)) g_upper
  ++ each prefit ++ each postfit ++ each noise ++ each real_obs ++ each computed_obs
  ++ [Floats (over (fun r => Some (ratio r)) resids);
      Bools (over (fun r => Some (Spq_Model.rejected r)) resids);
      Text (over (fun r => Some (match Spq_Model.tracker r with Some x => x | None => "Undefined tracker"%string end)) resids)]
  ++ flat_map (fun i => map (fun j => Floats (map (option_map (fun k => k i j)) (g_gains s))) [0; 1]%nat) [0; 1; 2]%nat
  ++ map (fun i => Floats (map (option_map (fun f => f i)) (g_ratios s))) [0; 1; 2]%nat.

(** arrow: [RecordBatch::try_new]: as many columns as names, all of the same length, and no null
    in those that are not nullable. *)
Definition g_batch (h : list (gkey * bool)) (c : list column) : res od_error (list (gkey * column)) :=
  if negb (length h =? length c)%nat then Err ODArrow else
  let n := match c with [] => 0%nat | x :: _ => rows x end in
  if forallb (fun hc => (rows (snd hc) =? n)%nat && (snd (fst hc) || negb (nulls (snd hc)))) (combine h c)
  then Ok (combine (map fst h) c) else Err ODArrow.

(** solution.rs:58-527 [to_parquet] *)
Definition g_to_parquet (show : Z -> string) (cfg : export_cfg) (s : gsolution) : res od_error (list (gkey * column)) :=
  match g_estimates s with
  | [] => Err TooFewMeasurements
  | first :: _ =>
      let n := length (g_estimates s) in
      if negb (n =? length (g_residuals s))%nat || negb (n =? length (g_gains s))%nat || negb (n =? length (g_ratios s))%nat
      then Err NotAligned
      else
        let '(ests, resids) := g_selected cfg s first (last (g_estimates s) first) in
        g_batch (g_headers (g_types s)) (g_columns show s ests resids)
  end.
