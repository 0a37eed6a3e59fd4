(** Model of tracking data arcs: nyx-core/src/od/msr/trackingdata/mod.rs, measurement.rs, and
    the ambiguity resolution of od/process/mod.rs:335-348.

    Epochs and durations are integers (nanoseconds), values are real numbers.  The [source]
    of an arc and log messages are not modelled.  Duration arithmetic does not saturate here. *)
From Coq Require Import Reals String.
From Verif Require Import Base RustStd.
Local Open Scope Z_scope.

(** types.rs:36-57 *)
Inductive msr_type := Range | Doppler | Azimuth | Elevation | ReceiveFrequency
  | TransmitFrequency | TransmitFrequencyRate | MX | MY | MZ.
Definition msr_type_eq_dec (a b : msr_type) : {a = b} + {a <> b}.
Proof. decide equality. Defined.
Definition type_eqb (a b : msr_type) : bool := if msr_type_eq_dec a b then true else false.

(** * indexmap's [IndexMap]: an association list in insertion order *)
Section IndexMap.
Context {K V : Type} (eqb : K -> K -> bool).
Fixpoint im_get (k : K) (m : list (K * V)) : option V :=
  match m with
  | [] => None
  | (k', v) :: m' => if eqb k k' then Some v else im_get k m'
  end.
Fixpoint im_insert (k : K) (v : V) (m : list (K * V)) : list (K * V) :=
  match m with
  | [] => [(k, v)]
  | (k', v') :: m' => if eqb k k' then (k', v) :: m' else (k', v') :: im_insert k v m'
  end.
Fixpoint im_extend (m n : list (K * V)) : list (K * V) :=
  match n with
  | [] => m
  | (k, v) :: n' => im_extend (im_insert k v m) n'
  end.
End IndexMap.
Definition data := list (msr_type * R).
Definition get (t : msr_type) (d : data) : option R := im_get type_eqb t d.

(** measurement.rs:39-48 *)
Record measurement := {
  tracker : string; epoch : Z; obs : data; rejected : bool
}.

(** trackingdata/mod.rs:76-85 *)
Record arc := {
  measurements : list measurement;
  moduli : option (list (msr_type * R));
  force_reject : bool
}.
Definition with_measurements (a : arc) (l : list measurement) : arc :=
  {| measurements := l; moduli := moduli a; force_reject := force_reject a |}.

(** trackingdata/mod.rs:91-95: the order of the sort. *)
Definition msr_leb (a b : measurement) : bool :=
  match epoch a ?= epoch b with
  | Lt => true
  | Gt => false
  | Eq => match String.compare (tracker a) (tracker b) with Gt => false | _ => true end
  end.
Definition same_key (a b : measurement) : bool :=
  (epoch a =? epoch b) && String.eqb (tracker a) (tracker b).

(** trackingdata/mod.rs:102-108 *)
Definition merge (kept next : measurement) : measurement :=
  {| tracker := tracker kept; epoch := epoch kept;
     obs := im_extend type_eqb (obs kept) (obs next);
     rejected := rejected kept || rejected next |}.

(** trackingdata/mod.rs:100-116: [dedup_by] with a closure that changes the kept element. *)
Fixpoint dedup_merge (kept : measurement) (l : list measurement) : list measurement :=
  match l with
  | [] => [kept]
  | next :: l' =>
      if same_key next kept then dedup_merge (merge kept next) l'
      else kept :: dedup_merge next l'
  end.

Section Sort.
(** [sort_unstable_by]: any function that sorts; the order of equal elements is its choice. *)
Variable usort : list measurement -> list measurement.

(** [TrackingDataArc::sort], trackingdata/mod.rs:90-117 *)
Definition sort_measurements (l : list measurement) : list measurement :=
  match usort l with
  | [] => []
  | m :: l' => dedup_merge m l'
  end.
Definition sort (a : arc) : arc := with_measurements a (sort_measurements (measurements a)).

(** [Add], trackingdata/mod.rs:550-557 *)
Definition add (a b : arc) : arc :=
  {| measurements := sort_measurements (measurements a ++ measurements b);
     moduli := moduli a; force_reject := false |}.

(** [unique], trackingdata/mod.rs:352-362, the types in the order of first occurrence. *)
Definition unique_types (l : list measurement) : list msr_type :=
  fold_left (fun acc m =>
    fold_left (fun acc t => if existsb (type_eqb t) acc then acc else acc ++ [t])
      (map fst (obs m)) acc) l [].

(** [min_duration_sep], trackingdata/mod.rs:147-161; [DURATION_MAX] is hifitime's
    [Duration::MAX], 32768 centuries. *)
Definition DURATION_MAX : Z := 32768 * 3155760000000000000.
Fixpoint min_sep (prev acc : Z) (l : list measurement) : Z :=
  match l with
  | [] => acc
  | m :: l' => min_sep (epoch m) (Z.min acc (epoch m - prev)) l'
  end.
Definition min_duration_sep (l : list measurement) : option Z :=
  match l with
  | [] => None
  | m :: l' => Some (min_sep (epoch m) DURATION_MAX l')
  end.

(** trackingdata/mod.rs:230-234: [round(current_hz / target_hz) as usize], with exact
    arithmetic: the ratio of the steps rounded half away from zero; the infinite ratio of a
    zero step saturates, a negative one is cast to 0. *)
Definition USIZE_MAX : Z := 2 ^ 64 - 1.
Definition window_size (current target : Z) : Z :=
  if current =? 0 then USIZE_MAX
  else if current <? 0 then 0
  else Z.min USIZE_MAX ((2 * target + current) / (2 * current)).

Definition slice {A} (l : list A) (start stop : nat) : list A :=
  firstn (stop - start) (skipn start l).

(** trackingdata/mod.rs:262-270 *)
Definition average (t : msr_type) (window : list measurement) : option R :=
  let vs := flat_map (fun m => match get t (obs m) with Some v => [v] | None => [] end) window in
  match vs with
  | [] => None
  | _ => Some (fold_right Rplus 0 vs / INR (length vs))%R
  end.

(** trackingdata/mod.rs:248-273: one step of the loop, at index [i]; [None] is the panic of
    [window[0]] on an empty window. *)
Definition downsample_one (l : list measurement) (w : Z) (i : nat) (m : measurement)
  : option measurement :=
  let start := Z.to_nat (Z.of_nat i - w / 2) in
  let stop := Z.to_nat (Z.min (Z.of_nat i + w / 2 + 1) (Z.of_nat (length l))) in
  let window := slice l start stop in
  match window with
  | [] => None
  | m0 :: _ =>
      Some {| tracker := tracker m0; epoch := epoch m;
              obs := fold_left (fun d t =>
                       match average t window with
                       | Some v => im_insert type_eqb t v d
                       | None => d
                       end) (unique_types l) [];
              rejected := false |}
  end.

(** trackingdata/mod.rs:247: [enumerate().step_by(w)] *)
Fixpoint downsample_loop (l : list measurement) (w : Z) (i : nat) (rest : list measurement)
  : option (list measurement) :=
  match rest with
  | [] => Some []
  | m :: rest' =>
      if Z.of_nat i mod w =? 0 then
        match downsample_one l w i m, downsample_loop l w (S i) rest' with
        | Some x, Some r => Some (x :: r)
        | _, _ => None
        end
      else downsample_loop l w (S i) rest'
  end.

(** [downsample], trackingdata/mod.rs:217-277; [step_by(0)] panics.  [Panic] also stands for
    the window index that never happens. *)
Definition downsample (a : arc) (target : Z) : res unit arc :=
  match min_duration_sep (measurements a) with
  | None => Ok a
  | Some current =>
      if target <=? current then Ok a
      else
        let w := window_size current target in
        if w =? 0 then Panic
        else match downsample_loop (measurements a) w 0 (measurements a) with
             | Some l => Ok {| measurements := sort_measurements l; moduli := None;
                               force_reject := false |}
             | None => Panic
             end
  end.
End Sort.

(** [set_moduli], trackingdata/mod.rs:163-173; [f64::EPSILON] is 2^-52. *)
Definition set_moduli (a : arc) (t : msr_type) (m : R) : arc :=
  if Rlt_dec (Rabs m) (/ 2 ^ 52) then a
  else {| measurements := measurements a;
          moduli := Some (im_insert type_eqb t m
                            match moduli a with Some ms => ms | None => [] end);
          force_reject := force_reject a |}.

(** Rust's [%] and [f64::div_euclid], in exact arithmetic. *)
Definition trunc (x : R) : Z := if Rle_dec 0 x then Int_part x else - Int_part (- x).
Definition rem (x m : R) : R := (x - IZR (trunc (x / m)) * m)%R.
Definition div_euclid (x m : R) : R :=
  let q := IZR (trunc (x / m)) in
  if Rlt_dec (rem x m) 0 then (if Rlt_dec 0 m then q - 1 else q + 1)%R else q.

(** [data.get_mut(t)] followed by an assignment. *)
Fixpoint update (t : msr_type) (f : R -> R) (d : data) : data :=
  match d with
  | [] => []
  | (k, v) :: d' => if type_eqb t k then (k, f v) :: d' else (k, v) :: update t f d'
  end.

(** [apply_moduli], trackingdata/mod.rs:176-186 *)
Definition apply_moduli (a : arc) : arc :=
  match moduli a with
  | None => a
  | Some ms =>
      with_measurements a
        (map (fun m => {| tracker := tracker m; epoch := epoch m;
                          obs := fold_left (fun d tm => update (fst tm) (fun v => rem v (snd tm)) d)
                                   ms (obs m);
                          rejected := rejected m |}) (measurements a))
  end.

(** od/process/mod.rs:335-348: the observation used by the filter for one measurement type. *)
Definition resolve_ambiguity (ms : option (list (msr_type * R))) (t : msr_type)
    (measured computed : R) : R :=
  match ms with
  | None => measured
  | Some ms =>
      match im_get type_eqb t ms with
      | Some m => measured + div_euclid computed m * m
      | None => measured + 0
      end
  end%R.

(** [chunk], trackingdata/mod.rs:280-318.  The recursion bound is the number of chunks. *)
Fixpoint chunk_loop (fuel : nat) (a : arc) (max_duration : Z) (start_idx : nat)
  : res unit (list arc) :=
  match fuel with
  | O => NoFuel
  | S fuel' =>
      match nth_error (measurements a) start_idx with
      | None => Ok []
      | Some m =>
          let chunk_end := epoch m + max_duration in
          let offset := partition_point (fun x => epoch x <=? chunk_end)
                          (skipn start_idx (measurements a)) in
          let end_idx := (start_idx + offset)%nat in
          bind (chunk_loop fuel' a max_duration end_idx)
            (fun r => Ok (with_measurements a (slice (measurements a) start_idx end_idx) :: r))
      end
  end.
Definition chunk (fuel : nat) (a : arc) (max_duration : Z) : res unit (list arc) :=
  match measurements a with
  | [] => Ok []
  | _ => if max_duration <=? 0 then Ok [] else chunk_loop fuel a max_duration 0
  end.

(** [resolve_bounds], trackingdata/mod.rs:323-339 *)
Definition resolve_bounds (r : range) (l : list measurement) : nat * nat :=
  (match fst r with
   | Included e => partition_point (fun m => epoch m <? e) l
   | Excluded e => partition_point (fun m => epoch m <=? e) l
   | Unbounded => 0%nat
   end,
   match snd r with
   | Included e => partition_point (fun m => epoch m <=? e) l
   | Excluded e => partition_point (fun m => epoch m <? e) l
   | Unbounded => length l
   end).

(** [filter_by_epoch], trackingdata/mod.rs:367-390 *)
Definition filter_by_epoch (r : range) (l : list measurement) : list measurement :=
  let (s, e) := resolve_bounds r l in
  if ((e <=? s) || (length l <=? s))%nat then [] else skipn s (firstn e l).

(** [filter_by_offset], trackingdata/mod.rs:394-410 *)
Definition filter_by_offset (r : range) (l : list measurement) : list measurement :=
  match l with
  | [] => []
  | m :: _ =>
      let first := epoch m in
      let last_ := epoch (last l m) in
      let start := match fst r with
                   | Unbounded => first
                   | Included d | Excluded d => first + d
                   end in
      let stop := match snd r with
                  | Unbounded => last_
                  | Included d | Excluded d => first + d
                  end in
      filter_by_epoch (Included start, Excluded stop) l
  end.

(** [filter_by_tracker] and [exclude_tracker], trackingdata/mod.rs:413-426 and 438-451 *)
Definition filter_by_tracker (t : string) (l : list measurement) : list measurement :=
  filter (fun m => String.eqb (tracker m) t) l.
Definition exclude_tracker (t : string) (l : list measurement) : list measurement :=
  filter (fun m => negb (String.eqb (tracker m) t)) l.

(** trackingdata/mod.rs:431 and 474 *)
Definition retain (p : msr_type -> bool) (m : measurement) : measurement :=
  {| tracker := tracker m; epoch := epoch m; obs := filter (fun kv => p (fst kv)) (obs m);
     rejected := rejected m |}.

(** [filter_by_measurement_type], trackingdata/mod.rs:429-435 *)
Definition filter_by_measurement_type (t : msr_type) (l : list measurement) : list measurement :=
  filter (fun m => match obs m with [] => false | _ => true end)
    (map (retain (fun k => type_eqb k t)) l).

(** [exclude_measurement_type], trackingdata/mod.rs:469-479 *)
Definition exclude_measurement_type (t : msr_type) (l : list measurement) : list measurement :=
  map (retain (fun k => negb (type_eqb k t))) l.

(** [exclude_by_epoch], trackingdata/mod.rs:456-466 *)
Definition exclude_by_epoch (r : range) (l : list measurement) : list measurement :=
  let (s, e) := resolve_bounds r l in
  if ((s <? e) && (s <? length l))%nat then firstn s l ++ skipn e l else l.

Definition reject (m : measurement) : measurement :=
  {| tracker := tracker m; epoch := epoch m; obs := obs m; rejected := true |}.

(** [reject_by_epoch], trackingdata/mod.rs:484-493 *)
Definition reject_by_epoch (r : range) (l : list measurement) : list measurement :=
  let (s, e) := resolve_bounds r l in
  if ((s <? e) && (s <? length l))%nat
  then firstn s l ++ map reject (slice l s e) ++ skipn e l else l.

(** [reject_by_tracker], trackingdata/mod.rs:497-504 *)
Definition reject_by_tracker (t : string) (l : list measurement) : list measurement :=
  map (fun m => if String.eqb (tracker m) t then reject m else m) l.
