(** Model of orbit determination solutions in parquet files: [to_parquet] of
    nyx-core/src/od/process/solution/export.rs and [from_parquet] of import.rs.

    The names of the columns are represented by what their format strings print (see [key]); the
    covariances are those of the estimates, the deviations of the elements and those in the RIC frame
    are oracles (see [Est_Model]).  The file, its metadata, the devices and the log messages are not
    modelled. *)
From Coq Require Import Reals String.
From Verif Require Import Base RustStd Arc_Model Vec3 Angles Util_Model Sc_Model Pq_Model Tpq_Model.
Local Open Scope string_scope.

(** od/error.rs and io/mod.rs: the variants met here *)
Inductive od_error :=
| TooFewMeasurements | NotAligned | ODState | ODArrow.
Inductive io_error := MissingColumn | MissingFrame | Inconsistency | ArrowCast | SeekingCovariance.

(** [size] is that of the state *)
Definition size : nat := 9.

(** export.rs and import.rs: the columns, after what is printed in their names *)
Inductive key :=
| KEpoch                                 (* "Epoch (UTC)" *)
| KParam (p : parameter)                 (* "{p}", such as "X (km)" or "cr" *)
| KSigmaParam (p : parameter)            (* "Sigma {p}" *)
| KCov (i j : nat)                       (* "Covariance {i}*{j} ({frame}) ({unit})", found by "Covariance {i}*{j}" *)
| KSigma (i : nat)                       (* "Sigma {i} ({frame}) ({unit})" *)
| KRic (i : nat)                         (* "Sigma {i} (RIC) ({unit})" *)
| KPrefit (t : msr_type)                 (* "Prefit residual: {t} ({unit})" *)
| KWhitened (j : nat)                    (* "Whitened residual #{j}", written *)
| KWhitenedOf (t : msr_type)             (* "Whitened residual: {t} ({unit})", read *)
| KPostfit (t : msr_type)                (* "Postfit residual: {t} ({unit})" *)
| KNoise (t : msr_type)                  (* "Measurement noise: {t} ({unit})" *)
| KReal (t : msr_type)                   (* "Real observation: {t} ({unit})" *)
| KComputed (t : msr_type)               (* "Computed observation: {t} ({unit})" *)
| KRatio                                 (* "Residual ratio" *)
| KRejected                              (* "Residual Rejected" *)
| KTracker                               (* "Tracker" *)
| KGain (i : nat) (t : msr_type)         (* "Gain {i}*{t} ({unit}*{unit})" *)
| KGainAt (i j : nat)                    (* "Gain {i}*[{j}]" *)
| KFsr (i : nat).                        (* "Filter-smoother ratio {i} ({unit})", found by "Filter-smoother ratio {i}" *)
Definition key_eq_dec (a b : key) : {a = b} + {a <> b}.
Proof. repeat decide equality. Defined.
Definition key_eqb (a b : key) : bool := if key_eq_dec a b then true else false.

(** od/estimate/kfestimate.rs:40-55 [KfEstimate] *)
Record estimate := {
  nominal : spacecraft; deviation : list R; covar : nat -> nat -> R; covar_bar : nat -> nat -> R;
  e_stm : nat -> nat -> R; predicted : bool
}.
(** od/estimate/mod.rs:54-56 [state] *)
Definition state (e : estimate) : spacecraft := add9 (nominal e) (deviation e).

(** od/estimate/residual.rs:34-59 [Residual] *)
Record residual := {
  r_epoch : Z; prefit : nat -> R; postfit : nat -> R; whitened : nat -> R; ratio : R; noise : nat -> R;
  rejected : bool; tracker : option string; msr_types : list msr_type; real_obs : nat -> R; computed_obs : nat -> R
}.
(** indexmap: [get_index_of]; residual.rs:135-181 *)
Fixpoint index_of (t : msr_type) (l : list msr_type) : option nat :=
  match l with [] => None | x :: l' => if type_eqb x t then Some 0 else option_map S (index_of t l') end.
Definition by_type (v : residual -> nat -> R) (r : residual) (t : msr_type) : option R :=
  option_map (v r) (index_of t (msr_types r)).

(** solution/mod.rs:63-89 *)
Record solution := {
  estimates : list estimate; residuals : list (option residual); gains : list (option (nat -> nat -> R));
  ratios : list (option (nat -> R)); measurement_types : list msr_type
}.

(** io/mod.rs:45-58: the part of [ExportCfg] that is used *)
Record export_cfg := { start_epoch : option Z; end_epoch : option Z; step : option Z; fields_of : option (list parameter) }.

(** A column with its name, whether it is nullable, and the metadata nyx adds: the frame and the areas *)
Record entry := { e_key : key; e_nullable : bool; e_meta : option (nat * R * R); e_col : column }.

Section Parquet.
(** the size of the measurements *)
Context (M : nat).
Context (evaluate : element -> orbit -> option R)
        (bplane : orbit -> option (R * R * R)) (dcm_to_inertial : nat -> orbit -> option m3).
(** kfestimate.rs [sigma_for], [unwrap]ped; export.rs:426-455, with its [unwrap] *)
Context (sigma_for : element -> estimate -> option R) (ric_sigma : nat -> estimate -> option R).
Context (show : Z -> string) (parse : string -> option Z).
(** the content of a null slot, and NaN *)
Context (null_slot nan : R).
(** std: the order of the iteration of a [HashMap] *)
Context (order : list msr_type -> list msr_type).

Notation value := (value evaluate bplane dcm_to_inertial).

(** [Result] of the columns, by [?] and [unwrap] *)
Definition or_panic {A} (x : option A) : res od_error A := match x with Some a => Ok a | None => Panic end.

(** export.rs:358-384 *)
Definition selected (cfg : export_cfg) (s : solution) (first last : estimate) : list estimate * list (option residual) :=
  match start_epoch cfg, end_epoch cfg, step cfg with
  | None, None, None => (estimates s, residuals s)
  | _, _, _ =>
      let at_ e := epoch (sc_orbit (state e)) in
      let lo := match start_epoch cfg with Some t => t | None => at_ first end in
      let hi := match end_epoch cfg with Some t => t | None => at_ last end in
      let l := filter (fun er => (lo <=? at_ (fst er))%Z && (at_ (fst er) <=? hi)%Z) (combine (estimates s) (residuals s)) in
      (map fst l, map snd l)
  end.

(** export.rs:163-171 *)
Definition retained (first : estimate) (p : parameter) : bool :=
  match value (state first) p with Ok _ => negb (param_eqb p GuidanceModeP) | _ => false end.
Definition is_element (p : parameter) : bool := match p with Element _ => true | _ => false end.

(** the pairs of [for i in 0..9 { for j in i..9 }] *)
Definition upper : list (nat * nat) :=
  flat_map (fun i => map (fun j => (i, j)) (seq i (size - i))) (seq 0 size).
Definition grid : list (nat * nat) := list_prod (seq 0 size) (seq 0 M).

Definition nullable_col (k : key) (c : column) : entry := {| e_key := k; e_nullable := true; e_meta := None; e_col := c |}.
Definition plain_col (k : key) (c : column) : entry := {| e_key := k; e_nullable := false; e_meta := None; e_col := c |}.

(** export.rs:393-405 and 407-418: the parameters, and the deviations of the elements *)
Definition param_col (meta : nat * R * R) (l : list estimate) (p : parameter) : res od_error entry :=
  bind (traverse (fun e => match value (state e) p with Ok x => Ok (Some x) | _ => Err ODState end) l) (fun c =>
  Ok {| e_key := KParam p; e_nullable := false; e_meta := Some meta; e_col := Floats c |}).
Definition sigma_col (meta : nat * R * R) (l : list estimate) (p : parameter) : res od_error entry :=
  bind (traverse (fun e => match p with Element oe => bind (or_panic (sigma_for oe e)) (fun x => Ok (Some x)) | _ => Panic end) l) (fun c =>
  Ok {| e_key := KSigmaParam p; e_nullable := false; e_meta := Some meta; e_col := Floats c |}).
Definition ric_col (l : list estimate) (i : nat) : res od_error entry :=
  bind (traverse (fun e => bind (or_panic (ric_sigma i e)) (fun x => Ok (Some x))) l) (fun c => Ok (plain_col (KRic i) (Floats c))).

(** export.rs:457-585: the residuals *)
Definition over {A} (f : residual -> option A) (l : list (option residual)) : list (option A) :=
  map (fun r => match r with Some r => f r | None => None end) l.
Definition residual_cols (types : list msr_type) (l : list (option residual)) : list entry :=
  let each k v := map (fun t => nullable_col (k t) (Floats (over (fun r => by_type v r t) l))) types in
  each KPrefit prefit
  ++ map (fun j => nullable_col (KWhitened j) (Floats (over (fun r => Some (whitened r j)) l))) (seq 0 M)
  ++ each KPostfit postfit ++ each KNoise noise ++ each KReal real_obs ++ each KComputed computed_obs
  ++ [nullable_col KRatio (Floats (over (fun r => Some (ratio r)) l));
      nullable_col KRejected (Bools (over (fun r => Some (rejected r)) l));
      nullable_col KTracker (Text (over (fun r => Some (match tracker r with Some s => s | None => "Undefined tracker" end)) l))].

(** export.rs:316-343 and 587-612: all the gains and ratios, whatever is selected *)
Definition gain_key (types : list msr_type) (i j : nat) : key :=
  if (length types =? M)%nat then KGain i (nth j types Range) else KGainAt i j.
Definition gain_cols (types : list msr_type) (l : list (option (nat -> nat -> R))) : list entry :=
  map (fun ij => nullable_col (gain_key types (fst ij) (snd ij))
                   (Floats (map (option_map (fun k => k (fst ij) (snd ij))) l))) grid.
Definition fsr_cols (l : list (option (nat -> R))) : list entry :=
  map (fun i => nullable_col (KFsr i) (Floats (map (option_map (fun f => f i)) l))) (seq 0 size).

(** arrow: [RecordBatch::try_new] *)
Definition batch (t : list entry) : res od_error (list entry) :=
  let n := match t with [] => 0%nat | e :: _ => rows (e_col e) end in
  if forallb (fun e => (rows (e_col e) =? n)%nat && (e_nullable e || negb (nulls (e_col e)))) t
  then Ok t else Err ODArrow.

(** export.rs:61-660 [to_parquet] *)
Definition to_parquet (cfg : export_cfg) (s : solution) : res od_error (list entry) :=
  match estimates s with
  | [] => Err TooFewMeasurements
  | first :: _ =>
      let n := length (estimates s) in
      if negb (n =? length (residuals s))%nat || negb (n =? length (gains s))%nat || negb (n =? length (ratios s))%nat
      then Err NotAligned
      else
        let meta := (frame (sc_orbit (state first)), srp_area_m2 (nominal first), drag_area_m2 (nominal first)) in
        let fields := filter (retained first) (match fields_of cfg with Some l => l | None => export_params end) in
        let '(ests, resids) := selected cfg s first (last (estimates s) first) in
        bind (traverse (param_col meta ests) fields) (fun params =>
        bind (traverse (sigma_col meta ests) (filter is_element fields)) (fun sigmas =>
        bind (traverse (ric_col ests) (seq 0 6)) (fun rics =>
        batch (plain_col KEpoch (Text (map (fun e => Some (show (epoch (sc_orbit (state e))))) ests))
          :: params ++ sigmas
          ++ map (fun ij => plain_col (KCov (fst ij) (snd ij)) (Floats (map (fun e => Some (covar e (fst ij) (snd ij))) ests))) upper
          ++ map (fun i => plain_col (KSigma i) (Floats (map (fun e => Some (sqrt (covar e i i))) ests))) (seq 0 size)
          ++ rics ++ residual_cols (measurement_types s) resids
          ++ gain_cols (measurement_types s) (gains s) ++ fsr_cols (ratios s)))))
  end.

(** import.rs:102-126: what the metadata of the fields tell, the last one prevailing *)
Definition last_meta (t : list entry) : option (nat * R * R) :=
  fold_left (fun m e => match e_meta e with Some x => Some x | None => m end) t None.
Definition has_key (k : key) (t : list entry) : bool := existsb (fun e => key_eqb (e_key e) k) t.
Fixpoint get_col (k : key) (t : list entry) : option column :=
  match t with [] => None | e :: t' => if key_eqb (e_key e) k then Some (e_col e) else get_col k t' end.
Definition get_floats (k : key) (t : list entry) : res io_error (list (option R)) :=
  match get_col k t with None => Err MissingColumn | Some (Floats l) => Ok l | Some _ => Err ArrowCast end.
Definition opt_floats (k : key) (t : list entry) : option (list (option R)) :=
  match get_col k t with Some (Floats l) => Some l | _ => None end.

(** types.rs:172-189 [from_str], of the [Debug] of a type *)
Definition readable (t : msr_type) : bool :=
  match t with ReceiveFrequency | TransmitFrequency | TransmitFrequencyRate => false | _ => true end.
(** import.rs:187-203; an [IndexSet] *)
Definition types_found (t : list entry) : list msr_type :=
  fold_left (fun l e => match e_key e with
                        | KPrefit ty => if readable ty && negb (existsb (type_eqb ty) l) then (l ++ [ty])%list else l
                        | _ => l end) t [].

(** import.rs:252-264, 289-330 *)
Definition cov_cols (t : list entry) : res io_error (list (list (option R))) :=
  traverse (fun ij => match get_col (KCov (fst ij) (snd ij)) t with
                      | None => Err SeekingCovariance | Some (Floats l) => Ok l | Some _ => Err ArrowCast end) upper.
Fixpoint all_floats (ks : list key) (t : list entry) : option (list (list (option R))) :=
  match ks with
  | [] => Some []
  | k :: ks' => match get_col k t with
                | Some (Floats l) => option_map (cons l) (all_floats ks' t)
                | _ => None
                end
  end.
Definition or_empty {A} (x : option (list A)) : list A := match x with Some l => l | None => [] end.

(** import.rs:465-488, 490-511: the cells of a line, [None] if one is null; the index can be out of bounds *)
Fixpoint cells (n : nat) (cols : list (list (option R))) (i : nat) : res io_error (option (list R)) :=
  match n with
  | O => Ok (Some [])
  | S n' => match cols with
            | [] => Panic
            | c :: cols' => match valid_at c i with
                            | None => Ok None
                            | Some x => bind (cells n' cols' i) (fun o => Ok (option_map (cons x) o))
                            end
            end
  end.

(** import.rs:385-397: the covariance of a line *)
Definition sym (l : list R) (i j : nat) : R :=
  match find (fun k => match nth k upper (0, 0)%nat with (a, b) => (a =? Nat.min i j)%nat && (b =? Nat.max i j)%nat end) (seq 0 (length upper)) with
  | Some k => nth k l 0%R
  | None => 0%R
  end.

(** import.rs:408-462: the residual of a line *)
Record type_cols := { c_prefit : option R; c_whitened : option R; c_postfit : option R; c_noise : option R; c_real : option R; c_computed : option R }.
Definition cell (k : key) (t : list entry) (i : nat) : option R :=
  match opt_floats k t with Some l => valid_at l i | None => None end.
Definition cols_at (t : list entry) (i : nat) (ty : msr_type) : type_cols :=
  {| c_prefit := cell (KPrefit ty) t i; c_whitened := cell (KWhitenedOf ty) t i; c_postfit := cell (KPostfit ty) t i;
     c_noise := cell (KNoise ty) t i; c_real := cell (KReal ty) t i; c_computed := cell (KComputed ty) t i |}.
Definition some {A} (x : option A) : bool := match x with Some _ => true | None => false end.
Definition any_cell (c : type_cols) : bool :=
  some (c_prefit c) || some (c_whitened c) || some (c_postfit c) || some (c_noise c) || some (c_real c) || some (c_computed c).
Definition read_residual (t : list entry) (found : list msr_type) (i : nat) (ep : Z) : option residual :=
  let at_ {A} (l : option (list (option A))) := match l with Some l => valid_at l i | None => None end in
  match at_ (match get_col KRejected t with Some (Bools l) => Some l | _ => None end),
        at_ (match get_col KTracker t with Some (Text l) => Some l | _ => None end), at_ (opt_floats KRatio t) with
  | Some rej, Some trk, Some rat =>
      let types := firstn M (filter (fun ty => any_cell (cols_at t i ty)) (order found)) in
      let vec (f : type_cols -> option R) (k : nat) : R :=
        match nth_error types k with
        | Some ty => match f (cols_at t i ty) with Some x => x | None => nan end
        | None => 0%R
        end in
      Some {| r_epoch := ep; prefit := vec c_prefit; postfit := vec c_postfit; whitened := vec c_whitened; ratio := rat;
              noise := vec c_noise; rejected := rej; tracker := Some trk; msr_types := types;
              real_obs := vec c_real; computed_obs := vec c_computed |}
  | _, _, _ => None
  end.

(** import.rs:360-520: a line; anise: [from_dry_and_prop_masses] has no extra mass *)
Definition read_line (t : list entry) (meta : nat * R * R) (eps : list (option string)) (st : list (list (option R)))
    (covs : list (list (option R))) (found : list msr_type) (gcols fcols : list (list (option R))) (i : nat)
    : res io_error (estimate * option residual * option (nat -> nat -> R) * option (nat -> R)) :=
  match parse (text_at eps i) with
  | None => Err Inconsistency
  | Some ep =>
      let '(fr, srp, drag) := meta in
      let v k := float_at null_slot (nth k st []) i in
      let sc := Spacecraft (Orbit ep fr (V3 (v 0) (v 1) (v 2)) (V3 (v 3) (v 4) (v 5))) (v 8) (v 9) 0
                  srp (v 6) drag (v 7) None Coast None None in
      let cov := sym (map (fun c => float_at null_slot c i) covs) in
      let est := {| nominal := sc; deviation := repeat 0%R size; covar := cov; covar_bar := cov;
                    e_stm := fun a b => if (a =? b)%nat then 1%R else 0%R; predicted := false |} in
      bind (match gcols with [] => Ok None | _ => cells (size * M) gcols i end) (fun g =>
      bind (match fcols with [] => Ok None | _ => cells size fcols i end) (fun f =>
      Ok (est, read_residual t found i ep,
          option_map (fun l a b => nth (a * M + b) l 0%R) g, option_map (fun l a => nth a l 0%R) f)))
  end%nat.

(** import.rs:77-560 [from_parquet]; 232-250: the columns of the state *)
Definition state_keys : list key :=
  map KParam [Element X; Element Y; Element Z_; Element VX; Element VY; Element VZ; Cr; Cd; DryMass; PropMass].
Definition from_parquet (t : list entry) : res io_error solution :=
  if negb (has_key KEpoch t) then Err MissingColumn
  else match last_meta t with
  | None => Err MissingFrame
  | Some meta =>
      let found := types_found t in
      bind (match get_col KEpoch t with Some (Text l) => Ok l | _ => Err ArrowCast end) (fun eps =>
      bind (traverse (fun k => get_floats k t) state_keys) (fun st =>
      bind (cov_cols t) (fun covs =>
      let gcols := or_empty (all_floats (map (fun it => KGain (fst it) (snd it)) (list_prod (seq 0 size) found)) t) in
      let fcols := or_empty (all_floats (map KFsr (seq 0 size)) t) in
      bind (traverse (read_line t meta eps st covs found gcols fcols) (seq 0 (length eps))) (fun l =>
      Ok {| estimates := map (fun x => fst (fst (fst x))) l; residuals := map (fun x => snd (fst (fst x))) l;
            gains := map (fun x => snd (fst x)) l; ratios := map snd l; measurement_types := found |}))))
  end.
End Parquet.
