(** Model of the loading of the coefficients of gravity fields: nyx-core/src/io/gravity.rs.

    A file is its text (ASCII here; the Rust library knows other white space characters).
    Opening, unzipping and decoding the file, the frame and the log messages are not
    modelled; the message of an error is the reason that comes first.  A path is the list of
    its components.  The parsers of numbers are the library's. *)
From Coq Require Import Reals String Ascii List.
From Verif Require Import Base Tdm_Model Sc_Model Grav_Model.
Import ListNotations.
Local Open Scope string_scope.

Inductive load_error := BadDegree | BadOrder | BadC | BadS.

(** [str::replace] of a character by another *)
Fixpoint replace_char (a b : ascii) (s : string) : string :=
  match s with
  | EmptyString => ""
  | String c s' => String (if Ascii.eqb c a then b else c) (replace_char a b s')
  end.

(** [str.matches('-').count()] *)
Fixpoint count_char (a : ascii) (s : string) : nat :=
  match s with
  | EmptyString => 0
  | String c s' => ((if Ascii.eqb c a then 1 else 0) + count_char a s')%nat
  end.

(** [str::starts_with] a character *)
Definition starts_with (a : ascii) (s : string) : bool :=
  match s with EmptyString => false | String c _ => Ascii.eqb c a end.

Definition DASH : ascii := "-"%char.

Section Load.
(** [usize::from_str] and [f64::from_str] *)
Context (parse_usize : string -> option nat) (parse_f64 : string -> option R).

Definition get {A} (parse : string -> option A) (e : load_error) (s : string) : res load_error A :=
  match parse s with Some x => Ok x | None => Err e end.
(** the [i]th item of a line, if there is one *)
Definition item {A} (items : list string) (i : nat) (default : A) (f : string -> res load_error A)
  : res load_error A :=
  match nth_error items i with Some s => f s | None => Ok default end.

(** gravity.rs:410-462: a line of a SHADR file. *)
Definition read_shadr (line : string) : res load_error (nat * nat * R * R) :=
  let items := split_whitespace (replace_char "," " " line) in
  bind (item items 0 0%nat (get parse_usize BadDegree)) (fun n =>
  bind (item items 1 0%nat (get parse_usize BadOrder)) (fun m =>
  bind (item items 2 0%R (fun s => get parse_f64 BadC (replace_char "D" "E" s))) (fun c =>
  bind (item items 3 0%R (fun s => get parse_f64 BadS (replace_char "D" "E" s))) (fun s =>
  Ok (n, m, c, s))))).

(** gravity.rs:236-311: the item that holds C_nm, and S_nm too when S_nm is negative.
    [parts] has as many elements as there are separators, and one more. *)
Definition read_pair (it : string) : res load_error (R * R) :=
  let k := count_char DASH it in
  if ((k =? 3) && negb (starts_with DASH it) || (k =? 4))%nat%bool then
    let parts := split DASH it in
    let p i := nth i parts "" in
    if (length parts =? 5)%nat then
      bind (get parse_f64 BadC ("-" ++ p 1%nat ++ "-" ++ p 2%nat)) (fun c =>
      bind (get parse_f64 BadS ("-" ++ p 3%nat ++ "-" ++ p 4%nat)) (fun s => Ok (c, s)))
    else
      bind (get parse_f64 BadC (p 0%nat ++ "-" ++ p 1%nat)) (fun c =>
      bind (get parse_f64 BadS ("-" ++ p 2%nat ++ "-" ++ p 3%nat)) (fun s => Ok (c, s)))
  else bind (get parse_f64 BadC it) (fun c => Ok (c, 0%R)).

(** gravity.rs:188-328: a line of a COF file; [degree] is the requested one. *)
Definition read_cof (degree : nat) (line : string) : res load_error (nat * nat * R * R) :=
  let items := split_whitespace line in
  bind (item items 1 0%nat (get parse_usize BadDegree)) (fun n =>
  bind (item items 2 0%nat (get parse_usize BadOrder)) (fun m =>
  bind (item items 3 (0%R, 0%R) (fun it =>
    if (degree =? 0)%nat then bind (get parse_f64 BadC it) (fun c => Ok (c, 0%R)) else read_pair it)) (fun cs =>
  bind (item items 4 (snd cs) (get parse_f64 BadS)) (fun s =>
  Ok (n, m, fst cs, s))))).

(** gravity.rs:464-485 and 330-351 (same code): one more line; writing outside of the matrices
    is a panic. *)
Definition empty_field (degree : nat) : field_data :=
  {| degree := 0; order := 0; size := S degree; c_nm := fun _ _ => 0%R; s_nm := fun _ _ => 0%R |}.
Definition insert (order_ : nat) (r : nat * nat * R * R) (d : field_data) : res load_error field_data :=
  let '(n, m, c, s) := r in
  bind (if (m <=? order_)%nat then
          if ((n <? size d) && (m <? size d))%nat then Ok (upd (c_nm d) n m c, upd (s_nm d) n m s) else Panic
        else Ok (c_nm d, s_nm d)) (fun cs =>
  Ok {| degree := Nat.max (degree d) n; order := Nat.max (order d) m; size := size d;
        c_nm := fst cs; s_nm := snd cs |}).

(** the loops, gravity.rs:404-486 and 184-352 *)
Fixpoint load_lines (read : string -> res load_error (nat * nat * R * R)) (degree_ order_ : nat)
    (lines : list string) (d : field_data) : res load_error field_data :=
  match lines with
  | [] => Ok d
  | l :: lines' =>
      bind (read l) (fun r =>
      let '(n, _, _, _) := r in
      if (degree_ <? n)%nat then Ok d
      else bind (insert order_ r d) (fun d' => load_lines read degree_ order_ lines' d'))
  end.

(** gravity.rs:370-501 [load] with the first line skipped: [from_shadr] (137-148) *)
Definition from_shadr (text : string) (degree_ order_ : nat) : res load_error field_data :=
  load_lines read_shadr degree_ order_ (tl (split LF text)) (empty_field degree_).

(** gravity.rs:150-367 [from_cof]: only the lines that start with an R are read. *)
Definition from_cof (text : string) (degree_ order_ : nat) : res load_error field_data :=
  load_lines (read_cof degree_) degree_ order_ (filter (starts_with "R") (split LF text)) (empty_field degree_).

(** [Path::ends_with]: whole components. *)
Definition ends_with (path child : list string) : bool :=
  if list_eq_dec string_dec (skipn (length path - length child) path) child then true else false.

(** gravity.rs:99-114 [from_config] *)
Definition from_config (path : list string) (gunzipped : bool) (text : string) (degree_ order_ : nat)
  : res load_error field_data :=
  if (negb gunzipped && ends_with path [".cof"]) || (gunzipped && ends_with path [".cof.gz"])
  then from_cof text degree_ order_ else from_shadr text degree_ order_.
End Load.

(** gravity.rs:117-128 [from_j2] *)
Definition from_j2 (j2 : R) : field_data :=
  {| degree := 2; order := 0; size := 3;
     c_nm := upd (fun _ _ => 0%R) 2 0 j2; s_nm := fun _ _ => 0%R |}.
