(** What it means for an orbit determination run to visit the measurements of an arc. *)
From Coq Require Import Reals String.
From Verif Require Import Base Arc_Model Sched_Model Sol_Model Prop_Model Prop_Spec Traj_Model.
From Verif Require Import Odp_Model Prop_Model.
Local Open Scope Z_scope.

(** The state transition matrix does not carry the epoch; setting the epoch sets it. *)
Record keeps_clock {St V F E} (e : env St V F E) (so : stm_ops St) : Prop := {
  clock_with : forall s, epoch e (with_stm so s) = epoch e s;
  clock_reset : forall s, epoch e (reset_stm so s) = epoch e s;
  clock_set : forall s t, epoch e (set_epoch so s t) = t
}.

(** An estimate bears the epoch of the state handed to the filter. *)
Record keeps_date {St V F E K Est RV G C H Fe} (e : env St V F E)
    (fo : filter_ops St K Est RV G C H Fe) : Prop := {
  date_time : forall k s k' est, time_update fo k s = (k', Ok est) ->
    epoch e (nominal_of fo est) = epoch e s;
  date_msr : forall k s real computed c h crit k' est r g,
    measurement_update fo k s real computed c h crit = (k', Ok (est, r, g)) ->
    epoch e (nominal_of fo est) = epoch e s /\ epoch e (state_of fo est) = epoch e s
}.

(** Measuring with a device does not change what it can measure. *)
Definition keeps_types {St D C H De} (dv : device_ops St D C H De) : Prop :=
  forall d t traj, types_of dv (fst (measure dv d t traj)) = types_of dv d.

(** A request made to the filter. *)
Inductive call (St C H : Type) :=
| TimeUpdate (nominal : St)
| MeasurementUpdate (nominal : St) (tracker : string) (types : list msr_type)
    (real computed : list R) (c : C) (h : H).
Arguments TimeUpdate {St C H}. Arguments MeasurementUpdate {St C H}.

Definition nominal_state {St C H} (x : call St C H) : St :=
  match x with TimeUpdate s => s | MeasurementUpdate s _ _ _ _ _ _ => s end.

(** One line of a solution. *)
Record row (Est RV G : Type) := { row_estimate : Est; row_residual : option (residual RV);
                                  row_gain : option G }.
Arguments row_estimate {Est RV G}. Arguments row_residual {Est RV G}. Arguments row_gain {Est RV G}.

(** Making the requests one after the other, starting from a filter; [None] if one fails. *)
Fixpoint replay {St K Est RV G C H Fe} (fo : filter_ops St K Est RV G C H Fe) (crit : option R)
    (k : K) (l : list (call St C H)) : option (list (row Est RV G)) :=
  match l with
  | [] => Some []
  | TimeUpdate s :: l' =>
      match time_update fo k s with
      | (k', Ok est) =>
          option_map (cons {| row_estimate := est; row_residual := None; row_gain := None |})
            (replay fo crit k' l')
      | _ => None
      end
  | MeasurementUpdate s name types real computed c h :: l' =>
      match measurement_update fo k s real computed c h crit with
      | (k', Ok (est, r, g)) =>
          option_map (cons
            {| row_estimate := est;
               row_residual := Some {| values := values r; res_rejected := res_rejected r;
                                       res_tracker := Some name; res_types := types |};
               row_gain := g |}) (replay fo crit k' l')
      | _ => None
      end
  end.

(** Consecutive groups of [n] types, the last one possibly shorter. *)
Inductive grouped {A} (n : nat) : list A -> list (list A) -> Prop :=
| grouped_nil : grouped n [] []
| grouped_last : forall l, (0 < length l <= n)%nat -> grouped n l [l]
| grouped_cons : forall g l gs, length g = n -> l <> [] -> grouped n l gs ->
    grouped n (g ++ l) (g :: gs).

Inductive subsequence {A} : list A -> list A -> Prop :=
| sub_nil : forall l, subsequence [] l
| sub_keep : forall x l l', subsequence l l' -> subsequence (x :: l) (x :: l')
| sub_skip : forall x l l', subsequence l l' -> subsequence l (x :: l').

(** The value of a type in a measurement, zero if it has none. *)
Definition value_or_zero (d : data) (t : msr_type) : R :=
  match get t d with Some v => v | None => 0%R end.

(** The measurement has a value for one of the types. *)
Definition has_one (d : data) (types : list msr_type) : Prop :=
  exists t v, List.In t types /\ get t d = Some v.

(** Time updates after [start], each at most [step] after the one before, none after [last]. *)
Fixpoint paced {St C H V F E} (e : env St V F E) (start step last : Z) (l : list (call St C H))
  : Prop :=
  match l with
  | [] => True
  | TimeUpdate s :: l' =>
      start < epoch e s <= start + step /\ epoch e s <= last /\ paced e (epoch e s) step last l'
  | MeasurementUpdate _ _ _ _ _ _ _ :: _ => False
  end.

(** Epoch of the last request, [start] if there is none. *)
Fixpoint last_epoch {St C H V F E} (e : env St V F E) (start : Z) (l : list (call St C H)) : Z :=
  match l with [] => start | x :: l' => last_epoch e (epoch e (nominal_state x)) l' end.

(** The measurement update of one group of types of measurement [m] of arc [a], taken from a
    device that measures [all]. *)
Definition is_update {St V F E D C H De} (e : env St V F E) (dv : device_ops St D C H De)
    (n : nat) (p : odp D) (a : arc) (m : measurement) (all : list msr_type)
    (x : call St C H) (types : list msr_type) : Prop :=
  match x with
  | TimeUpdate _ => False
  | MeasurementUpdate s name types' real computed c h =>
      types' = types /\ epoch e s = Arc_Model.epoch m /\
      exists t d traj d' seen bias,
        Z.abs (t - Arc_Model.epoch m) < epoch_precision p /\
        types_of dv d = all /\ name = name_of dv d' /\
        h_tilde dv d m types s = Ok h /\ covar_of dv d types t = Ok c /\
        measure dv d t traj = (d', Ok (Some seen)) /\ bias_of dv d' types t = Ok bias /\
        (forall i ty b, nth_error types i = Some ty -> nth_error bias i = Some b ->
           nth_error computed i = Some (value_or_zero seen ty - b)%R) /\
        (forall i ty cv, nth_error types i = Some ty -> nth_error computed i = Some cv ->
           nth_error real i =
             Some (resolve_ambiguity (moduli a) ty (value_or_zero (obs m) ty) cv)) /\
        (forall i, (length types <= i < n)%nat -> nth_error real i = Some 0%R)
  end.

(** The requests made for one measurement, from the state at [start]: time updates on the way,
    then what the measurement asks for.  [always] says that devices always answer. *)
Inductive visit {St V F E D C H De} (e : env St V F E) (dv : device_ops St D C H De)
    (n : nat) (p : odp D) (a : arc) (always : Prop) (start : Z) (m : measurement)
  : list (call St C H) -> Prop :=
| visit_rejected : forall way s,
    rejected m = true ->
    paced e start (odp_max_step p) (Arc_Model.epoch m - epoch_precision p) way ->
    Z.abs (epoch e s - Arc_Model.epoch m) < epoch_precision p ->
    epoch e s <= last_epoch e start way + odp_max_step p ->
    visit e dv n p a always start m (way ++ [TimeUpdate s])
| visit_unknown : forall way,
    rejected m = false -> find (tracker m) (devices p) = None ->
    paced e start (odp_max_step p) (Arc_Model.epoch m - epoch_precision p) way ->
    Arc_Model.epoch m < last_epoch e start way + odp_max_step p + epoch_precision p ->
    visit e dv n p a always start m way
| visit_known : forall way d groups usable used ups,
    rejected m = false -> find (tracker m) (devices p) = Some d ->
    paced e start (odp_max_step p) (Arc_Model.epoch m - epoch_precision p) way ->
    Arc_Model.epoch m < last_epoch e start way + odp_max_step p + epoch_precision p ->
    grouped n (types_of dv d) groups ->
    subsequence usable groups -> Forall (has_one (obs m)) usable ->
    (forall g, List.In g groups -> has_one (obs m) g -> List.In g usable) ->
    subsequence used usable -> (always -> used = usable) ->
    Forall2 (is_update e dv n p a m (types_of dv d)) ups used ->
    visit e dv n p a always start m (way ++ ups).

(** The measurements of [l] are visited in order. *)
Fixpoint visits {St V F E D C H De} (e : env St V F E) (dv : device_ops St D C H De)
    (n : nat) (p : odp D) (a : arc) (always : Prop) (start : Z) (l : list measurement)
    (calls : list (call St C H)) : Prop :=
  match l with
  | [] => calls = []
  | m :: l' => exists now later, calls = now ++ later /\ visit e dv n p a always start m now /\
                 visits e dv n p a always (Arc_Model.epoch m) l' later
  end.

Definition always_answers {St D C H De} (dv : device_ops St D C H De) : Prop :=
  forall d t traj d', measure dv d t traj <> (d', Ok None).

(** Epochs in order. *)
Inductive ordered : list Z -> Prop :=
| ordered_nil : ordered []
| ordered_cons : forall x l, Forall (fun y => x <= y) l -> ordered l -> ordered (x :: l).

(** Nothing the process calls reports the artificial [NoFuel] outcome. *)
Record real_calls {St K Est RV G C H Fe D De} (fo : filter_ops St K Est RV G C H Fe)
    (dv : device_ops St D C H De) : Prop := {
  real_time : forall k s, snd (time_update fo k s) <> NoFuel;
  real_msr : forall k s real computed c h crit,
    snd (measurement_update fo k s real computed c h crit) <> NoFuel;
  real_h : forall d m types s, h_tilde dv d m types s <> NoFuel;
  real_covar : forall d types t, covar_of dv d types t <> NoFuel;
  real_measure : forall d t traj, snd (measure dv d t traj) <> NoFuel;
  real_bias : forall d types t, bias_of dv d types t <> NoFuel
}.

(** The instance can go forward and backward (see [steps_backward]). *)
Definition ready {St V F E} (e : env St V F E) (i : inst (St := St)) : Prop :=
  steps_backward e 1 i.

(** The first positive number of steps that reaches the end. *)
Definition is_count (start step stop : Z) (k : nat) : Prop :=
  (1 <= k)%nat /\ stop <= start + Z.of_nat k * step /\
  forall j, (1 <= j < k)%nat -> start + Z.of_nat j * step < stop.
