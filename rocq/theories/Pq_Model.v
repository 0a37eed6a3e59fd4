(** Tables, as nyx writes them to parquet files and reads them back: the part of the arrow and
    parquet crates that nyx-core/src/od/msr/trackingdata/io_parquet.rs, md/trajectory/{traj,sc_traj}.rs
    and od/process/solution/{export,import}.rs rely on.  A file holds the table written to it: the
    encoding, the compression and the splitting into batches are not modelled. *)
From Coq Require Import Reals String.
From Verif Require Import Base.

(** arrow: [StringArray], [Float64Array] and [BooleanArray], whose slots can be null *)
Inductive column :=
| Text (l : list (option string))
| Floats (l : list (option R))
| Bools (l : list (option bool)).
Definition rows (c : column) : nat :=
  match c with Text l => length l | Floats l => length l | Bools l => length l end.
Definition nulls (c : column) : bool :=
  let null {A} (x : option A) := match x with None => true | Some _ => false end in
  match c with Text l => existsb null l | Floats l => existsb null l | Bools l => existsb null l end.

(** arrow: [DataType], [Field] (its metadata being an association list) *)
Inductive data_type := Utf8 | Float64 | Boolean.
Definition type_of (c : column) : data_type :=
  match c with Text _ => Utf8 | Floats _ => Float64 | Bools _ => Boolean end.
Record field := { f_name : string; f_type : data_type; f_nullable : bool; f_meta : list (string * string) }.
Definition plain (name : string) (t : data_type) (nullable : bool) : field :=
  {| f_name := name; f_type := t; f_nullable := nullable; f_meta := [] |}.
Definition data_type_eqb (a b : data_type) : bool :=
  match a, b with Utf8, Utf8 | Float64, Float64 | Boolean, Boolean => true | _, _ => false end.

Definition table := list (field * column).

(** arrow: [RecordBatch::try_new], which refuses a number of columns other than that of the fields,
    columns of different lengths, nulls in a column that is not nullable, and other types *)
Definition record_batch (hdrs : list field) (cols : list column) : option table :=
  if negb (length hdrs =? length cols)%nat then None
  else
    let t := combine hdrs cols in
    let n := match cols with [] => 0%nat | c :: _ => rows c end in
    if forallb (fun fc => (rows (snd fc) =? n)%nat && (f_nullable (fst fc) || negb (nulls (snd fc)))
                          && data_type_eqb (f_type (fst fc)) (type_of (snd fc))) t
    then Some t else None.

(** arrow: [RecordBatch::num_rows] and [RecordBatch::column_by_name], the first of this name *)
Definition num_rows (t : table) : nat := match t with [] => 0%nat | (_, c) :: _ => rows c end.
Fixpoint column_by_name (name : string) (t : table) : option column :=
  match t with
  | [] => None
  | (f, c) :: t' => if String.eqb (f_name f) name then Some c else column_by_name name t'
  end.
Definition has_field (name : string) (t : table) : bool :=
  existsb (fun fc => String.eqb (f_name (fst fc)) name) t.

(** arrow: [value(i)], which does not look whether the slot is null: a null slot of a text is the
    empty text, that of a number is what its buffer holds, here a parameter. *)
Definition text_at (l : list (option string)) (i : nat) : string :=
  match nth i l None with Some s => s | None => EmptyString end.
Definition float_at (null_slot : R) (l : list (option R)) (i : nat) : R :=
  match nth i l None with Some x => x | None => null_slot end.
(** arrow: [is_valid(i)] then [value(i)] *)
Definition valid_at {A} (l : list (option A)) (i : nat) : option A := nth i l None.

(** [?] in a loop over rows *)
Fixpoint traverse {E A B} (f : A -> res E B) (l : list A) : res E (list B) :=
  match l with
  | [] => Ok []
  | a :: l' => bind (f a) (fun b => bind (traverse f l') (fun bs => Ok (b :: bs)))
  end.
