(** Vocabulary for the statements about files of gravity fields. *)
From Coq Require Import Reals String Ascii List Sorting.
From Verif Require Import Base Tdm_Text.
Import ListNotations.
Local Open Scope string_scope.

(** A coefficient of a file. *)
Record coefficient := Coef { deg : nat; ord : nat; C_nm : R; S_nm : R }.

(** [s] is made of the [words], with separators around them. *)
Inductive separated (sep : ascii -> Prop) : string -> list string -> Prop :=
| separated_nil : separated sep "" []
| separated_skip : forall a s ws, sep a -> separated sep s ws -> separated sep (String a s) ws
| separated_word : forall w s ws, w <> "" -> (forall a, sep a -> without a w) ->
    (s = "" \/ exists a s', s = String a s' /\ sep a) ->
    separated sep s ws -> separated sep (w ++ s) (w :: ws).

(** A file is sorted by degree and has each coefficient once. *)
Definition well_formed (l : list coefficient) : Prop :=
  StronglySorted (fun a b => (deg a <= deg b)%nat) l /\
  NoDup (map (fun a => (deg a, ord a)) l) /\
  Forall (fun a => (ord a <= deg a)%nat) l.

(** The coefficients that are asked for. *)
Definition wanted (degree order : nat) (l : list coefficient) : list coefficient :=
  filter (fun a => (1 <=? deg a) && (deg a <=? degree) && (ord a <=? order))%nat%bool l.

(** The lines of a file hold the coefficients, each on its line and in the order of the file,
    among lines without coefficients. *)
Inductive listing (entry : string -> coefficient -> Prop) (other : string -> Prop)
  : list string -> list coefficient -> Prop :=
| listing_nil : listing entry other [] []
| listing_other : forall l ls cs, other l -> listing entry other ls cs -> listing entry other (l :: ls) cs
| listing_entry : forall l ls a cs, entry l a -> listing entry other ls cs ->
    listing entry other (l :: ls) (a :: cs).

(** Numbers with at most a minus sign for themselves and one for their exponent. *)
Definition dash_free (s : string) : Prop := without "-" s.
Inductive signs : string -> Prop :=
| signs_plain : forall a, dash_free a -> signs a
| signs_exponent : forall a b, dash_free a -> dash_free b -> signs (a ++ "-" ++ b)
| signs_minus : forall a, dash_free a -> signs ("-" ++ a)
| signs_both : forall a b, dash_free a -> dash_free b -> signs ("-" ++ a ++ "-" ++ b).
(** Numbers with a negative exponent. *)
Inductive small : string -> Prop :=
| small_positive : forall a b, a <> "" -> dash_free a -> dash_free b -> small (a ++ "-" ++ b)
| small_negative : forall a b, dash_free a -> dash_free b -> small ("-" ++ a ++ "-" ++ b).
(** The same, negative. *)
Definition small_minus (s : string) : Prop :=
  exists a b, dash_free a /\ dash_free b /\ s = "-" ++ a ++ "-" ++ b.
