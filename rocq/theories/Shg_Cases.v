(** Files of gravity fields: cases and refutations. *)
From Coq Require Import Reals String Ascii List Sorting Lia Lra Arith Bool.
From Coquelicot Require Import Coquelicot.
From Verif Require Import Base Tdm_Model Tdm_Text Vec3 Sc_Model Orb_Spec Grav_Legendre Grav_Model Grav_Spec Grav_Table Grav_Props
  Shg_Model Shg_Spec Shg_Proofs Shg_Props.
Import ListNotations.
Local Open Scope string_scope.

(** * J2 *)
Lemma legendre_2 u : dlegendre 2 0 u = ((3 * (u * u) - 1) / 2)%R.
Proof.
  pose proof (degree_relation 0 0 u) as D. rewrite (dlegendre_sub 0), !dlegendre_diag0 in D. cbn [INR] in D. lra.
Qed.

(** The potential of [from_j2]: the value is used as a normalised C_20. *)
Theorem C75_j2 : forall j2 er mu p, p <> vzero ->
  potential (from_j2 j2) er mu p =
  (sqrt 5 * (mu / norm p * (er / norm p) ^ 2 * j2 * ((3 * (vz p / norm p * (vz p / norm p)) - 1) / 2)))%R.
Proof.
  intros j2 er mu p Hp. unfold potential, from_j2. cbn [degree order seq map rsum Nat.min c_nm s_nm].
  unfold upd. cbn [Nat.eqb andb]. rewrite harmonic_0. unfold harmonic. cbn [cpow].
  rewrite legendre_2.
  assert (K : norm_factor 2 0 = sqrt 5) by (unfold norm_factor; cbn; f_equal; field).
  rewrite K. cbn [pow]. ring.
Qed.

(** The potential of a body with this J2 is [- mu / r * J2 * (R / r)^2 * P_2]. *)
Theorem C75_j2_refuted : exists j2 er mu p,
  potential (from_j2 j2) er mu p <>
  (- (mu / norm p * (er / norm p) ^ 2 * j2 * ((3 * (vz p / norm p * (vz p / norm p)) - 1) / 2)))%R.
Proof.
  exists 1%R, 1%R, 1%R, (V3 0 0 1). rewrite C75_j2.
  - assert (N1 : norm (V3 0 0 1) = 1%R).
    { unfold norm, dot; cbn [vx vy vz]. replace (0 * 0 + 0 * 0 + 1 * 1)%R with 1%R by ring. apply sqrt_1. }
    rewrite N1. cbn [vz]. replace (1 / 1)%R with 1%R by field.
    assert (0 < sqrt 5)%R by (apply sqrt_lt_R0; lra). cbn [pow]. lra.
  - intros E. apply (f_equal vz) in E. cbn in E. lra.
Qed.

(** * Files *)
Fixpoint digits (acc : nat) (s : string) : option nat :=
  match s with
  | EmptyString => Some acc
  | String a s' => let k := nat_of_ascii a in
      if ((48 <=? k) && (k <=? 57))%nat then digits (10 * acc + (k - 48)) s' else None
  end.
Definition parse_nat (s : string) : option nat := match s with EmptyString => None | _ => digits 0 s end.
(** The numbers of the files below. *)
Definition parse_number (s : string) : option R :=
  if String.eqb s "1.0E+00" then Some 1%R else
  if String.eqb s "5e-1" then Some (/ 2)%R else
  if String.eqb s "-5e-1" then Some (- / 2)%R else
  if String.eqb s "-2e+0" then Some (-2)%R else
  if String.eqb s "0" then Some 0%R else None.

Definition shadr_file : list string := ["  2,   0,  1.0D+00,  0"; "2 1 1.0D+00 5e-1 1.0D+00"].
Definition shadr_coefs : list coefficient := [Coef 2 0 1 0; Coef 2 1 1 (/ 2)].
Definition cof_file : list string :=
  ["POTFIELD 2 2"; "RECOEF 2 0 1.0E+00"; "RECOEF 2 1 5e-1-5e-1"; "RECOEF 2 2 -5e-1 1.0E+00"; "END"].
Definition cof_coefs : list coefficient := [Coef 2 0 1 0; Coef 2 1 (/ 2) (- / 2); Coef 2 2 (- / 2) 1].

Lemma without_dec c s : (count_char c s =? 0)%nat = true -> without c s.
Proof.
  induction s as [|a s IH]; [intros _ []|]. cbn [count_char]. intros H. apply without_cons.
  destruct (Ascii.eqb_spec a c) as [E|N]; [discriminate|]. split; [exact N|]. apply IH. exact H.
Qed.
Fixpoint all_chars (p : ascii -> bool) (s : string) : bool :=
  match s with EmptyString => true | String a s' => p a && all_chars p s' end.
Lemma without_class (sep : ascii -> Prop) (b : ascii -> bool) : (forall a, sep a -> b a = true) ->
  forall w, all_chars (fun a => negb (b a)) w = true -> forall a, sep a -> without a w.
Proof.
  intros H w. induction w as [|c w IH]; intros A a Ha; [apply without_empty|].
  cbn [all_chars] in A. apply andb_true_iff in A as [A1 A2]. apply without_cons. split; [|now apply IH].
  intros ->. rewrite (H a Ha) in A1. discriminate.
Qed.
Lemma ws_free w : all_chars (fun a => negb (is_ws a)) w = true -> forall a, ws a -> without a w.
Proof. exact (without_class ws is_ws (fun a H => H) w). Qed.
Lemma ws_comma_free w : all_chars (fun a => negb (is_ws a || Ascii.eqb a ",")) w = true ->
  forall a, ws_comma a -> without a w.
Proof.
  apply (without_class ws_comma (fun a => is_ws a || Ascii.eqb a ",")%bool). intros a [H | ->]; [|reflexivity].
  rewrite H. reflexivity.
Qed.

Ltac next_word w := match goal with
  |- separated ?sep ?s (w :: ?l) =>
    let rest := eval compute in (substring (String.length w) (String.length s - String.length w) s) in
    change (separated sep (w ++ rest) (w :: l)); apply separated_word;
      [discriminate| |first [left; reflexivity|right; do 2 eexists; split; [reflexivity|]]|] end.
Ltac words := repeat match goal with
  | |- separated _ "" [] => apply separated_nil
  | |- separated ws (String _ _) _ => apply separated_skip; [reflexivity|]
  | |- separated ws_comma (String _ _) _ => apply separated_skip; [first [left; reflexivity|right; reflexivity]|]
  | |- separated _ _ (?w :: _) => next_word w
  | |- forall a, ws a -> _ => apply ws_free; reflexivity
  | |- forall a, ws_comma a -> _ => apply ws_comma_free; reflexivity
  | |- ws _ => reflexivity
  | |- ws_comma _ => first [left; reflexivity|right; reflexivity]
  end.

Ltac sorted := repeat (constructor; cbn [deg ord map In]; try lia); try (intuition congruence).

Example C75_shadr_case :
  without LF "header" /\ Forall (without LF) shadr_file /\
  listing (shadr_entry parse_nat parse_number) (fun l => separated ws_comma l []) shadr_file shadr_coefs /\
  well_formed shadr_coefs.
Proof.
  split; [now apply without_dec|]. split; [repeat (constructor; [now apply without_dec|]); constructor|]. split.
  - constructor 3.
    { exists "2", "0", "1.0D+00", "0", []. split; [words|]. repeat split. }
    constructor 3.
    { exists "2", "1", "1.0D+00", "5e-1", ["1.0D+00"]. split; [words|]. repeat split. }
    constructor.
  - unfold well_formed, shadr_coefs. refine (conj _ (conj _ _)); sorted.
Qed.

Example C75_cof_case :
  Forall (without LF) cof_file /\
  listing (cof_entry parse_nat parse_number) (fun l => starts_with "R" l = false) cof_file cof_coefs /\
  well_formed cof_coefs.
Proof.
  split; [repeat (constructor; [now apply without_dec|]); constructor|]. split.
  - constructor 2; [reflexivity|]. constructor 3.
    { split; [reflexivity|]. exists "RECOEF", "2", "0", ["1.0E+00"]. split; [words|]. split; [reflexivity|]. split; [reflexivity|].
      apply cof_zonal; [|reflexivity]. apply signs_plain. now apply without_dec. }
    constructor 3.
    { split; [reflexivity|]. exists "RECOEF", "2", "1", ["5e-1" ++ "-5e-1"]. split; [words|]. split; [reflexivity|]. split; [reflexivity|].
      apply cof_joined; [| |reflexivity|reflexivity].
      - change "5e-1" with ("5e" ++ "-" ++ "1"). apply small_positive; [discriminate| |]; now apply without_dec.
      - exists "5e", "1". split; [now apply without_dec|]. split; [now apply without_dec|reflexivity]. }
    constructor 3.
    { split; [reflexivity|]. exists "RECOEF", "2", "2", ["-5e-1"; "1.0E+00"]. split; [words|]. split; [reflexivity|]. split; [reflexivity|].
      apply cof_apart; [|reflexivity|reflexivity].
      change "-5e-1" with ("-" ++ "5e" ++ "-" ++ "1"). apply signs_both; now apply without_dec. }
    constructor 2; [reflexivity|]. constructor.
  - unfold well_formed, cof_coefs. refine (conj _ (conj _ _)); sorted.
Qed.

(** * Refutations *)
(** The order of the field is that of the file, not the requested one. *)
Theorem C75_order_refuted : exists parse_usize parse_f64 text D O d,
  from_shadr parse_usize parse_f64 text D O = Ok d /\ (O < order d)%nat.
Proof.
  exists parse_nat, parse_number, (concat_all (map ln ("header" :: shadr_file))), 2%nat, 0%nat.
  eexists. split; [vm_compute; reflexivity|]. cbn. lia.
Qed.

(** A valid COF file in which one negative S_nm has a positive exponent does not load. *)
Theorem C75_cof_exponent_refuted : exists parse_usize parse_f64 sc ss c s,
  parse_f64 sc = Some c /\ parse_f64 ss = Some s /\ starts_with "-" ss = true /\
  from_cof parse_usize parse_f64 (ln ("RECOEF 2 1 " ++ sc ++ ss)) 2 2 = Err BadC.
Proof.
  exists parse_nat, parse_number, "5e-1", "-2e+0", (/ 2)%R, (-2)%R. repeat split.
Qed.

(** A file that [from_cof] loads is refused by [from_config], under its own extension. *)
Theorem C75_config_refuted : exists parse_usize parse_f64 name text D O d,
  from_cof parse_usize parse_f64 text D O = Ok d /\
  from_config parse_usize parse_f64 [name ++ ".cof"] false text D O = Err BadDegree.
Proof.
  exists parse_nat, parse_number, "JGM3", (concat_all (map ln cof_file)), 2%nat, 2%nat.
  eexists. split; [vm_compute; reflexivity|]. vm_compute. reflexivity.
Qed.

(** A line whose order exceeds the requested degree panics. *)
Theorem C75_order_above_degree_refuted : exists parse_usize parse_f64 text D O,
  from_shadr parse_usize parse_f64 text D O = Panic.
Proof.
  exists parse_nat, parse_number, (concat_all (map ln ["header"; "2 3 1.0D+00 0"])), 2%nat, 3%nat.
  vm_compute. reflexivity.
Qed.

(** In a file that is not sorted by degree, what follows the first degree above the requested
    one is dropped without a word. *)
Theorem C75_unsorted_refuted : exists parse_usize parse_f64 l1 l2 d12 d21 er mu p,
  from_shadr parse_usize parse_f64 (concat_all (map ln ["header"; l1; l2])) 2 0 = Ok d12 /\
  from_shadr parse_usize parse_f64 (concat_all (map ln ["header"; l2; l1])) 2 0 = Ok d21 /\
  potential d12 er mu p <> 0%R /\ potential d21 er mu p = 0%R.
Proof.
  exists parse_nat, parse_number, "2 0 1.0D+00 0", "3 0 1.0D+00 0".
  destruct (C75_shadr parse_nat parse_number "header" ["2 0 1.0D+00 0"; "3 0 1.0D+00 0"] [Coef 2 0 1 0; Coef 3 0 1 0] 2 0)
    as (d & L & _ & _ & _ & _ & P).
  - now apply without_dec.
  - repeat (constructor; [now apply without_dec|]). constructor.
  - constructor 3.
    { exists "2", "0", "1.0D+00", "0", []. split; [words|]. repeat split. }
    constructor 3.
    { exists "3", "0", "1.0D+00", "0", []. split; [words|]. repeat split. }
    constructor.
  - unfold well_formed. refine (conj _ (conj _ _)); sorted.
  - exists d. eexists. exists 1%R, 1%R, (V3 0 0 1). split; [exact L|]. split; [vm_compute; reflexivity|]. split.
    + rewrite (P 1%R 1%R (V3 0 0 1)). cbn [wanted filter deg ord Nat.leb andb map rsum C_nm S_nm].
      assert (N1 : norm (V3 0 0 1) = 1%R).
      { unfold norm, dot; cbn [vx vy vz]. replace (0 * 0 + 0 * 0 + 1 * 1)%R with 1%R by ring. apply sqrt_1. }
      unfold harmonic. rewrite N1. cbn [cpow vz]. rewrite legendre_2.
      assert (K : norm_factor 2 0 = sqrt 5) by (unfold norm_factor; cbn; f_equal; field).
      rewrite K. replace (1 / 1)%R with 1%R by field. assert (0 < sqrt 5)%R by (apply sqrt_lt_R0; lra). cbn [pow]. lra.
    + unfold potential. cbn [degree seq map rsum]. reflexivity.
Qed.

Print Assumptions C75_shadr.
Print Assumptions C75_cof.
Print Assumptions C75_fits.
Print Assumptions C75_acceleration.
Print Assumptions C75_config_never_cof.
Print Assumptions C75_j2.
Print Assumptions C75_j2_refuted.
Print Assumptions C75_order_refuted.
Print Assumptions C75_cof_exponent_refuted.
Print Assumptions C75_config_refuted.
Print Assumptions C75_order_above_degree_refuted.
Print Assumptions C75_unsorted_refuted.
