(** Model of trajectories: nyx-core/src/md/trajectory/traj.rs and traj_it.rs, the spacecraft
    interpolation of interpolatable.rs, and the recording of a trajectory by
    propagators/instance.rs.

    Epochs and durations are integers (nanoseconds).  A trajectory is its list of states; its
    optional name plays no role.  Log messages are not modelled. *)
From Coq Require Import Reals.
From Verif Require Import Base RustStd Prop_Model.
Local Open Scope Z_scope.

(** trajectory/mod.rs:40-75, the variants met here. *)
Inductive traj_error := NoInterpolationData (epoch : Z) | Interpolation | CreationError.

(** What the trajectory asks of a state: trait [State] (epoch) and trait [Interpolatable],
    interpolatable.rs:33-50. *)
Record state_ops (S F : Type) := {
  st_epoch : S -> Z;
  st_frame : S -> F;
  st_frame_eqb : F -> F -> bool;
  st_interpolate : S -> Z -> list S -> res unit S
}.
Arguments st_epoch {S F}. Arguments st_frame {S F}. Arguments st_frame_eqb {S F}.
Arguments st_interpolate {S F}.

(** interpolatable.rs:22 *)
Definition INTERPOLATION_SAMPLES : nat := 13.

Section Traj.
Context {S F : Type} (o : state_ops S F).
Notation ep := (st_epoch o).

(** [Traj::finalize], traj.rs:75-80 *)
Definition finalize (l : list S) : list S :=
  sort_by (key_leb ep) (dedup_by (fun a b => ep a =? ep b) l).

(** [Traj::first] and [Traj::last], traj.rs:129-137: [None] is the panic of [unwrap]. *)
Definition first (l : list S) : option S := nth_error l 0.
Definition last_state (l : list S) : option S := nth_error l (length l - 1).

(** traj.rs:117-120: pushes [states[a]], ..., [states[a + n - 1]]; [None] is an index out of
    bounds. *)
Fixpoint push_range (l : list S) (a n : nat) : option (list S) :=
  match n with
  | O => Some []
  | Datatypes.S n' =>
      match nth_error l a, push_range l (Datatypes.S a) n' with
      | Some x, Some r => Some (x :: r)
      | _, _ => None
      end
  end.

(** [Traj::at], traj.rs:83-126 *)
Definition at_epoch (l : list S) (epoch : Z) : res traj_error S :=
  match first l, last_state l with
  | Some a, Some b =>
      if (epoch <? ep a) || (ep b <? epoch) then Err (NoInterpolationData epoch)
      else
        match binary_search_by (fun s => ep s ?= epoch) l with
        | inl idx => match nth_error l idx with Some s => Ok s | None => Panic end
        | inr idx =>
            if ((idx =? 0) || (length l <=? idx))%nat then Err (NoInterpolationData epoch)
            else
              let num_left := (INTERPOLATION_SAMPLES / 2)%nat in
              let first_idx := (idx - num_left)%nat in
              let last_idx := Nat.min (length l) (first_idx + INTERPOLATION_SAMPLES) in
              let first_idx :=
                if (last_idx =? length l)%nat then (last_idx - 2 * num_left)%nat
                else first_idx in
              if (last_idx <? first_idx)%nat then Panic (* usize underflow *)
              else
                match push_range l first_idx (last_idx - first_idx), nth_error l idx with
                | Some states, Some s =>
                    match st_interpolate o s epoch states with
                    | Ok r => Ok r
                    | Err _ => Err Interpolation
                    | Panic => Panic
                    | NoFuel => NoFuel
                    end
                | _, _ => Panic
                end
        end
  | _, _ => Err (NoInterpolationData epoch)
  end.

(** [TrajIterator::next], traj_it.rs:39-62, called until it returns [None] (a [for] loop or
    [collect]).  The recursion bound is the number of calls. *)
Fixpoint iterate_traj (fuel : nat) (l : list S) (ts : time_series) : res traj_error (list S) :=
  match fuel with
  | O => NoFuel
  | Datatypes.S fuel' =>
      match ts_next ts with
      | None => Ok []
      | Some (e, ts') =>
          match at_epoch l e with
          | Ok s => bind (iterate_traj fuel' l ts') (fun r => Ok (s :: r))
          | Err _ => match first l with Some _ => Ok [] | None => Panic end
          | Panic => Panic
          | NoFuel => NoFuel
          end
      end
  end.

(** [Traj::every_between], traj.rs:153-162 *)
Definition every_between (fuel : nat) (l : list S) (step start stop : Z)
  : res traj_error (list S) :=
  match first l, last_state l with
  | Some a, Some b =>
      iterate_traj fuel l (ts_inclusive (Z.max start (ep a)) (Z.min stop (ep b)) step)
  | _, _ => Panic
  end.

(** [Traj::every], traj.rs:148-150 *)
Definition every (fuel : nat) (l : list S) (step : Z) : res traj_error (list S) :=
  match first l, last_state l with
  | Some a, Some b => every_between fuel l step (ep a) (ep b)
  | _, _ => Panic
  end.

(** [Traj::resample], traj.rs:367-384 *)
Definition resample (fuel : nat) (l : list S) (step : Z) : res traj_error (list S) :=
  match l with
  | [] => Err CreationError
  | _ => bind (every fuel l step) (fun r => Ok (finalize r))
  end.

(** traj.rs:399-401 *)
Fixpoint at_all (l : list S) (epochs : list Z) : res traj_error (list S) :=
  match epochs with
  | [] => Ok []
  | e :: es => bind (at_epoch l e) (fun s => bind (at_all l es) (fun r => Ok (s :: r)))
  end.

(** [Traj::rebuild], traj.rs:388-406 *)
Definition rebuild (l : list S) (epochs : list Z) : res traj_error (list S) :=
  match l with
  | [] => Err CreationError
  | _ => bind (at_all l epochs) (fun r => Ok (finalize r))
  end.

(** [Traj::filter_by_epoch], traj.rs:165-173 *)
Definition filter_by_epoch (r : range) (l : list S) : list S :=
  filter (fun s => range_contains r (ep s)) l.

(** [Traj::filter_by_offset], traj.rs:177-193 *)
Definition filter_by_offset (r : range) (l : list S) : list S :=
  match first l, last_state l with
  | Some a, Some b =>
      let start := match fst r with
                   | Unbounded => ep a
                   | Included d | Excluded d => ep a + d
                   end in
      let stop := match snd r with
                  | Unbounded => ep b
                  | Included d | Excluded d => ep a + d
                  end in
      filter_by_epoch (Included start, Included stop) l
  | _, _ => l
  end.

(** [Add for &Traj], traj.rs:622-658 *)
Definition add (l m : list S) : res traj_error (list S) :=
  match first l, first m, last_state l with
  | Some a, Some b, Some z =>
      if negb (st_frame_eqb o (st_frame o a) (st_frame o b)) then Err CreationError
      else Ok (finalize (l ++ filter (fun s => ep z <? ep s) m))
  | _, _, _ => Panic
  end.

(** [AddAssign], traj.rs:670-672 *)
Definition add_assign (l m : list S) : res traj_error (list S) :=
  match add l m with Ok r => Ok r | NoFuel => NoFuel | _ => Panic end.

(** [Traj<Spacecraft>::to_frame], sc_traj.rs:90-131; [transform] is the almanac's
    [transform_to] followed by [with_orbit]. *)
Fixpoint transform_all (transform : S -> res unit S) (l : list S) : res traj_error (list S) :=
  match l with
  | [] => Ok []
  | s :: l' =>
      match transform s with
      | Ok x => bind (transform_all transform l') (fun r => Ok (x :: r))
      | Err _ => Err CreationError
      | Panic => Panic
      | NoFuel => NoFuel
      end
  end.
Definition to_frame (transform : S -> res unit S) (l : list S) : res traj_error (list S) :=
  match l with
  | [] => Err CreationError
  | _ => bind (transform_all transform l) (fun r => Ok (finalize r))
  end.
End Traj.

(** [PropInstance::for_duration_with_traj], instance.rs:297-326.  [arrange] is what the
    worker threads of [par_bridge] do to the order of the received states. *)
Definition for_duration_with_traj {St V F E} (e : env St V F E) (o : state_ops St F)
    (arrange : list St -> list St) (fuel : nat) (duration : Z) (i : inst (St := St))
  : res E (St * list St) :=
  let out := for_duration e fuel duration i in
  match o_res out with
  | Ok s => Ok (s, finalize o (arrange (o_sent out) ++ [state i]))
  | Err x => Err x
  | Panic => Panic
  | NoFuel => NoFuel
  end.

(** * Interpolation of a spacecraft, interpolatable.rs:52-108 *)
Record craft (F X : Type) := {
  c_epoch : Z;
  c_pos : R * R * R;
  c_vel : R * R * R;
  c_frame : F;
  c_prop : R;              (* mass.prop_mass_kg *)
  c_thrust : option (R * R * R);
  c_rest : X               (* everything that interpolation leaves alone *)
}.
Arguments c_epoch {F X}. Arguments c_pos {F X}. Arguments c_vel {F X}.
Arguments c_frame {F X}. Arguments c_prop {F X}. Arguments c_thrust {F X}.
Arguments c_rest {F X}.

Section Interpolate.
Context {F X : Type}.
(** anise [hermite_eval]: abscissas, values, derivatives, abscissa; [None] is its error. *)
Variable hermite_eval : list R -> list R -> list R -> R -> option (R * R).
(** hifitime [Epoch::to_et_seconds] *)
Variable to_et : Z -> R.

Definition px (c : craft F X) := fst (fst (c_pos c)).
Definition py (c : craft F X) := snd (fst (c_pos c)).
Definition pz (c : craft F X) := snd (c_pos c).
Definition vx (c : craft F X) := fst (fst (c_vel c)).
Definition vy (c : craft F X) := snd (fst (c_vel c)).
Definition vz (c : craft F X) := snd (c_vel c).

(** interpolatable.rs:53-108.  More than 13 samples overrun the arrays of lines 56-62; no
    sample at all makes [first().unwrap()] panic. *)
Definition interpolate (self : craft F X) (epoch : Z) (states : list (craft F X))
  : res unit (craft F X) :=
  if (INTERPOLATION_SAMPLES <? length states)%nat then Panic
  else
    let ts := map (fun c => to_et (c_epoch c)) states in
    let t := to_et epoch in
    match hermite_eval ts (map px states) (map vx states) t with
    | None => Err tt
    | Some (x, vx) =>
      match hermite_eval ts (map py states) (map vy states) t with
      | None => Err tt
      | Some (y, vy) =>
        match hermite_eval ts (map pz states) (map vz states) t with
        | None => Err tt
        | Some (z, vz) =>
            match nth_error states 0, nth_error states (length states - 1) with
            | Some a, Some b =>
                let rate := ((c_prop b - c_prop a) / to_secs (c_epoch b - c_epoch a))%R in
                Ok {| c_epoch := epoch; c_pos := (x, y, z); c_vel := (vx, vy, vz);
                      c_frame := c_frame self;
                      c_prop := (c_prop self + rate * to_secs (epoch - c_epoch a))%R;
                      c_thrust := None; c_rest := c_rest self |}
            | _, _ => Panic
            end
        end
      end
    end.

Definition craft_ops (frame_eqb : F -> F -> bool) : state_ops (craft F X) F :=
  {| st_epoch := c_epoch; st_frame := c_frame; st_frame_eqb := frame_eqb;
     st_interpolate := interpolate |}.
End Interpolate.
