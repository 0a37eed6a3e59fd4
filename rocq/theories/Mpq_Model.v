(** Model of the parquet export of Monte Carlo results: [to_parquet] of nyx-core/src/mc/results.rs, lines
    242-423.  The states and the parameters are arbitrary, as are their values.  The dates are written as
    such: their text is that of hifitime.  Not modelled: the path, the metadata, the names and units of the
    columns, the log messages and the writing of the file itself. *)
From Coq Require Import Reals String.
From Verif Require Import Base RustStd Traj_Model Mc_Model.
Local Open Scope Z_scope.

(** Rust: [as i32] *)
Definition as_i32 (n : nat) : Z := (Z.of_nat n + 2147483648) mod 4294967296 - 2147483648.

Section Export.
Context {S F P E : Type} (ops : state_ops S F).
(** [State::value]; the parameters shown as the text of a guidance mode, and this text (lines 370-380) *)
Context (value : P -> S -> option R) (is_mode : P -> bool) (mode_text : R -> string).

(** results.rs:74-81 [PropResult] *)
Record prop_result := { pr_state : S; pr_traj : list S }.
Definition mc_run := run S P prop_result E.
(** io/mod.rs:53-62 [ExportCfg]; [requested] is [export_params()] when no fields are given (lines 263-266) *)
Record mc_cfg := { requested : list P; c_start : option Z; c_end : option Z; c_step : option Z }.
Inductive export_error := NoSuccessfulRuns | Trajectory (e : traj_error) | ArrowError.
Definition lift {A} (r : res traj_error A) : res export_error A :=
  match r with Ok a => Ok a | Err e => Err (Trajectory e) | Panic => Panic | NoFuel => NoFuel end.
Definition or_else {A} (o : option A) (d : A) : A := match o with Some x => x | None => d end.

(** lines 285-299; [bounds] are the variables [start] and [end] of the function *)
Definition states_of (fuel : nat) (cfg : mc_cfg) (bounds : Z * Z) (traj : list S) : res export_error (list S) :=
  match c_start cfg, c_end cfg, c_step cfg with
  | None, None, None => Ok traj
  | _, _, _ => lift (every_between ops fuel traj (or_else (c_step cfg) 60000000000)
                       (or_else (c_start cfg) (fst bounds)) (or_else (c_end cfg) (snd bounds)))
  end.

(** lines 275-306, the loop over the runs; [first] panics without states *)
Record collected := { bounds : option (Z * Z); all_states : list S; run_indexes : list Z }.
Definition add_run (fuel : nat) (cfg : mc_cfg) (c : collected) (r : mc_run) : res export_error collected :=
  match result r with
  | inl _ => Ok c
  | inr success =>
      bind (match bounds c with
            | Some b => Ok b
            | None => match first (pr_traj success) with
                      | Some a => Ok (st_epoch ops a, st_epoch ops (pr_state success))
                      | None => Panic
                      end
            end) (fun b =>
      bind (states_of fuel cfg b (pr_traj success)) (fun states =>
      Ok {| bounds := Some b; all_states := all_states c ++ states;
            run_indexes := run_indexes c ++ repeat (as_i32 (index r)) (length states) |}))
  end.
Fixpoint add_runs (fuel : nat) (cfg : mc_cfg) (c : collected) (l : list mc_run) : res export_error collected :=
  match l with [] => Ok c | r :: l' => bind (add_run fuel cfg c r) (fun c' => add_runs fuel cfg c' l') end.

(** lines 326-347 *)
Definition kept_field (states : list S) (p : P) : bool :=
  existsb (fun s => match value p s with Some _ => true | None => false end) states.
Definition nullable_field (states : list S) (p : P) : bool :=
  existsb (fun s => match value p s with Some _ => false | None => true end) states.

(** The columns; [None] is null *)
Inductive cell := Number (x : R) | Mode (text : string).
(** lines 367-392 *)
Definition cell_of (p : P) (s : S) : option cell :=
  match value p s with
  | Some x => Some (if is_mode p then Mode (mode_text x) else Number x)
  | None => None
  end.
Record mc_table := { tb_epochs : list Z; tb_indexes : list Z; tb_columns : list (P * bool * list (option cell)) }.

(** lines 358-365, with the indexing of [run_indexes] *)
Fixpoint index_column (sno : nat) (states : list S) (indexes : list Z) : option (list Z) :=
  match states with
  | [] => Some []
  | _ :: states' =>
      match nth_error indexes sno, index_column (Datatypes.S sno) states' indexes with
      | Some i, Some l => Some (i :: l)
      | _, _ => None
      end
  end.

(** arrow: [RecordBatch::try_new], as in [Pq_Model] *)
Definition batch (t : mc_table) : option mc_table :=
  let n := length (tb_epochs t) in
  if (length (tb_indexes t) =? n)%nat &&
     forallb (fun c => (length (snd c) =? n)%nat &&
                       (snd (fst c) || forallb (fun x => match x with Some _ => true | None => false end) (snd c)))
             (tb_columns t)
  then Some t else None.

(** lines 242-423 *)
Definition mc_to_parquet (fuel : nat) (cfg : mc_cfg) (runs : list mc_run) : res export_error mc_table :=
  bind (add_runs fuel cfg {| bounds := None; all_states := []; run_indexes := [] |} runs) (fun c =>
  match bounds c with
  | None => Err NoSuccessfulRuns
  | Some _ =>
      match index_column 0 (all_states c) (run_indexes c) with
      | None => Panic
      | Some idx =>
          let fields := filter (kept_field (all_states c)) (requested cfg) in
          match batch {| tb_epochs := map (st_epoch ops) (all_states c); tb_indexes := idx;
                         tb_columns := map (fun p => (p, nullable_field (all_states c) p,
                                                      map (cell_of p) (all_states c))) fields |} with
          | Some t => Ok t
          | None => Err ArrowError
          end
      end
  end).
End Export.
Arguments prop_result : clear implicits.
Arguments mc_cfg : clear implicits.
Arguments mc_table : clear implicits.
Arguments mc_run : clear implicits.
