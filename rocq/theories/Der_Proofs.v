(** What was encoded is what is decoded: the parts of the [der] crate and of hifitime. *)
From Verif Require Import Base RustStd Der_Model.
From Verif Require Arc_Model Arc_Proofs Sc_Model Sched_Model.
Local Open Scope Z_scope.

(** The announced length is the one written, and the decoder returns the value and what follows. *)
Definition sound {A : Type} (P : A -> Prop) (len : A -> Z) (enc : A -> bytes)
    (dec : bytes -> res der_err (A * bytes)) : Prop :=
  forall a, P a -> len a = size (enc a) /\
    (len a <= MAX_LEN -> forall rest, dec (enc a ++ rest) = Ok (a, rest)).

Lemma size_app a b : size (a ++ b) = size a + size b.
Proof. unfold size. rewrite app_length. lia. Qed.
Lemma size_cons a b : size (a :: b) = 1 + size b.
Proof. unfold size. cbn [length]. lia. Qed.
Lemma size_nonneg l : 0 <= size l.
Proof. unfold size. lia. Qed.

(** * Octets *)
Lemma be_length k : forall z, length (be k z) = k.
Proof.
  induction k as [|k IH]; intros z; cbn [be]; [reflexivity|]. rewrite app_length, IH. cbn. lia.
Qed.
Lemma of_be_app l b : of_be (l ++ [b]) = of_be l * 256 + b.
Proof. unfold of_be. now rewrite fold_left_app. Qed.
Lemma of_be_be k : forall z, of_be (be k z) = z mod 256 ^ Z.of_nat k.
Proof.
  induction k as [|k IH]; intros z; cbn [be].
  - cbn. now rewrite Z.mod_1_r.
  - rewrite of_be_app, IH, Nat2Z.inj_succ, Z.pow_succ_r by lia.
    rewrite Z.rem_mul_r by lia. lia.
Qed.

Lemma take_app (v rest : bytes) : take (length v) (v ++ rest) = Ok (v, rest).
Proof.
  unfold take. rewrite app_length. destruct (Nat.ltb_spec (length v + length rest) (length v)); [lia|].
  rewrite firstn_app, Nat.sub_diag, firstn_all, skipn_app, Nat.sub_diag, skipn_all.
  cbn [firstn skipn]. now rewrite app_nil_r.
Qed.
Lemma take_size (v rest : bytes) : take (Z.to_nat (size v)) (v ++ rest) = Ok (v, rest).
Proof. unfold size. rewrite Nat2Z.id. apply take_app. Qed.

Lemma octets_bound n : 0 <= n <= MAX_LEN -> n < 256 ^ Z.of_nat (octets n) /\ (1 <= octets n <= 4)%nat.
Proof.
  intros H. unfold MAX_LEN in H. unfold octets.
  destruct (Z.ltb_spec n 256); [split; [cbn; lia|lia]|].
  destruct (Z.ltb_spec n 65536); [split; [cbn; lia|lia]|].
  destruct (Z.ltb_spec n 16777216); (split; [cbn; lia|lia]).
Qed.

Lemma dec_enc_len n rest : 0 <= n <= MAX_LEN -> dec_len (enc_len n ++ rest) = Ok (n, rest).
Proof.
  intros H. unfold enc_len. destruct (Z.ltb_spec n 128) as [L|L].
  - cbn [app dec_len]. destruct (Z.ltb_spec n 128); [reflexivity|lia].
  - destruct (octets_bound n H) as [B1 B2]. cbn [app dec_len].
    destruct (Z.ltb_spec (128 + Z.of_nat (octets n)) 128); [lia|].
    destruct (Z.eqb_spec (128 + Z.of_nat (octets n)) 128); [lia|].
    destruct (Z.ltb_spec 132 (128 + Z.of_nat (octets n))); [lia|]. cbn [orb].
    replace (Z.to_nat (128 + Z.of_nat (octets n) - 128)) with (length (be (octets n) n))
      by (rewrite be_length; lia).
    rewrite take_app. cbn [bind fst snd]. rewrite of_be_be, Z.mod_small by lia.
    destruct (Z.ltb_spec MAX_LEN n); [lia|]. destruct (Z.ltb_spec n 128); [lia|].
    rewrite Z.eqb_refl. reflexivity.
Qed.

Lemma dec_header tag n v rest : n = size v -> n <= MAX_LEN ->
  dec_tlv tag ((tag :: enc_len n ++ v) ++ rest) = Ok (v, rest).
Proof.
  intros -> H. cbn [app dec_tlv]. rewrite Z.eqb_refl. cbn [negb]. rewrite <- app_assoc.
  rewrite dec_enc_len by (pose proof (size_nonneg v); lia). cbn [bind fst snd]. apply take_size.
Qed.
Lemma dec_enc_tlv tag v rest : size v <= MAX_LEN -> dec_tlv tag (enc_tlv tag v ++ rest) = Ok (v, rest).
Proof. intros H. now apply dec_header. Qed.
Lemma header_size tag n v : n = size v -> size (tag :: enc_len n ++ v) = tlv_len n.
Proof. intros ->. rewrite size_cons, size_app. unfold tlv_len. lia. Qed.
Lemma enc_len_size n : 0 <= size (enc_len n).
Proof. apply size_nonneg. Qed.
Lemma tlv_len_ge n : n + 1 <= tlv_len n.
Proof. unfold tlv_len. pose proof (enc_len_size n). lia. Qed.

(** * Integers *)
Lemma pow_split k : (1 <= k)%nat -> 256 ^ Z.of_nat k = 2 * 2 ^ (8 * Z.of_nat k - 1).
Proof.
  intros H. rewrite <- Z.pow_succ_r by lia. replace (Z.succ (8 * Z.of_nat k - 1)) with (8 * Z.of_nat k) by lia.
  rewrite Z.pow_mul_r by lia. reflexivity.
Qed.

Lemma signed_be k z : (1 <= k)%nat -> fits k z = true -> signed (be k z) = z.
Proof.
  intros K F. unfold fits in F. apply andb_true_iff in F. destruct F as [F1 F2].
  apply Z.leb_le in F1. apply Z.ltb_lt in F2. unfold signed, size. rewrite be_length, of_be_be.
  assert (E : 2 ^ (8 * Z.of_nat k) = 2 * 2 ^ (8 * Z.of_nat k - 1)).
  { rewrite <- Z.pow_succ_r by lia. f_equal. lia. }
  rewrite (pow_split k K), E. rewrite (Z.mul_comm 2), Z.div_mul by lia. rewrite (Z.mul_comm _ 2).
  set (h := 2 ^ (8 * Z.of_nat k - 1)) in *. assert (0 < h) by (apply Z.pow_pos_nonneg; lia).
  clearbody h. destruct (Z.le_gt_cases 0 z) as [P|P].
  - rewrite Z.mod_small by lia. destruct (Z.ltb_spec z h); lia.
  - assert (M : z mod (2 * h) = z + 2 * h).
    { symmetry. apply (Z.mod_unique z (2 * h) (-1)); [left; lia|lia]. }
    rewrite M. destruct (Z.ltb_spec (z + 2 * h) h); lia.
Qed.

Lemma fits_mono k z : (1 <= k)%nat -> fits k z = true -> fits (S k) z = true.
Proof.
  intros K F. unfold fits in *. apply andb_true_iff in F. destruct F as [F1 F2].
  apply Z.leb_le in F1. apply Z.ltb_lt in F2.
  assert (2 ^ (8 * Z.of_nat k - 1) <= 2 ^ (8 * Z.of_nat (S k) - 1)) by (apply Z.pow_le_mono_r; lia).
  apply andb_true_iff. split; [apply Z.leb_le; lia|apply Z.ltb_lt; lia].
Qed.

Lemma int_octets_from_fits fuel : forall k z, (1 <= k)%nat -> fits (k + fuel) z = true ->
  fits (int_octets_from fuel k z) z = true /\ (k <= int_octets_from fuel k z <= k + fuel)%nat.
Proof.
  induction fuel as [|f IH]; intros k z K F; cbn [int_octets_from].
  - rewrite Nat.add_0_r in F. split; [exact F|lia].
  - destruct (fits k z) eqn:E; [split; [exact E|lia]|].
    destruct (IH (S k) z) as [A B]; [lia|now rewrite Nat.add_succ_comm|]. split; [exact A|lia].
Qed.

(** The 128 bits of the largest integer type. *)
Definition int_ok (lo hi z : Z) : Prop := lo <= z <= hi /\ - 2 ^ 127 <= z <= 2 ^ 127 - 1.

Lemma int_octets_ok z : - 2 ^ 127 <= z <= 2 ^ 127 - 1 ->
  fits (int_octets z) z = true /\ (1 <= int_octets z <= 17)%nat.
Proof.
  intros H. unfold int_octets. apply int_octets_from_fits; [lia|]. apply fits_mono; [lia|].
  unfold fits. apply andb_true_iff. split; [apply Z.leb_le|apply Z.ltb_lt];
    change (8 * Z.of_nat 16 - 1) with 127; lia.
Qed.

Lemma int_of_value_ok lo hi z : int_ok lo hi z -> int_of_value lo hi (int_value z) = Ok z.
Proof.
  intros [H1 H2]. destruct (int_octets_ok z H2) as [F B].
  assert (S : signed (int_value z) = z) by (unfold int_value; apply signed_be; [lia|exact F]).
  assert (L : length (int_value z) = int_octets z) by (unfold int_value; apply be_length).
  unfold int_of_value. destruct (int_value z) as [|b v] eqn:E; [cbn [length] in L; lia|].
  rewrite S. destruct (Z.ltb_spec z lo); [lia|]. destruct (Z.ltb_spec hi z); [lia|]. cbn [orb].
  rewrite L, Nat.eqb_refl. reflexivity.
Qed.

Lemma int_value_size z : size (int_value z) = Z.of_nat (int_octets z).
Proof. unfold size, int_value. now rewrite be_length. Qed.

Lemma int_sound lo hi : sound (int_ok lo hi) len_int enc_int (dec_int lo hi).
Proof.
  intros z H. unfold len_int, enc_int, dec_int. rewrite <- int_value_size. split.
  - symmetry. now apply header_size.
  - intros M rest. pose proof (tlv_len_ge (size (int_value z))).
    rewrite dec_enc_tlv by lia. cbn [bind fst snd]. now rewrite int_of_value_ok.
Qed.

Lemma bool_sound : sound (fun _ => True) len_bool enc_bool dec_bool.
Proof.
  intros b _. split; [now destruct b|]. intros _ rest. unfold dec_bool, enc_bool.
  rewrite dec_enc_tlv by (destruct b; cbn; unfold MAX_LEN; lia). now destruct b.
Qed.

Lemma enum_sound {A : Type} (code : A -> Z) of_code :
  (forall a, of_code (code a) = Some a) -> (forall a, 0 <= code a <= 255) ->
  sound (fun _ => True) (fun a => len_enum (code a)) (fun a => enc_enum (code a)) (dec_enum of_code).
Proof.
  intros R B a _. unfold len_enum, enc_enum, dec_enum. rewrite <- int_value_size. split.
  - symmetry. now apply header_size.
  - intros M rest. pose proof (tlv_len_ge (size (int_value (code a)))).
    rewrite dec_enc_tlv by lia. cbn [bind fst snd].
    rewrite int_of_value_ok by (specialize (B a); split; lia). cbn [bind]. now rewrite R.
Qed.

(** * Sequences *)
Lemma sum_len_size {A : Type} (P : A -> Prop) len enc dec l :
  sound P len enc dec -> Forall P l -> sum_len len l = size (concat (map enc l)).
Proof.
  intros S H. induction H as [|a l Ha H IH]; [reflexivity|].
  cbn [sum_len fold_right map concat]. change (fold_right _ 0 l) with (sum_len len l).
  rewrite size_app, IH. now rewrite (proj1 (S a Ha)).
Qed.

Lemma sum_len_nonneg {A : Type} (P : A -> Prop) len enc dec l :
  sound P len enc dec -> Forall P l -> 0 <= sum_len len l.
Proof. intros S H. rewrite (sum_len_size P len enc dec) by assumption. apply size_nonneg. Qed.

Lemma dec_all_enc {A : Type} (P : A -> Prop) len enc dec l : sound P len enc dec ->
  (forall a, P a -> 0 < len a) -> Forall P l -> sum_len len l <= MAX_LEN ->
  forall fuel, (length l <= fuel)%nat -> dec_all dec fuel (concat (map enc l)) = Ok l.
Proof.
  intros S N H. induction H as [|a l Ha H IH]; intros M fuel F.
  - destruct fuel; reflexivity.
  - destruct fuel as [|fuel]; [cbn in F; lia|].
    cbn [sum_len fold_right] in M. change (fold_right _ 0 l) with (sum_len len l) in M.
    pose proof (sum_len_nonneg P len enc dec l S H). pose proof (N a Ha).
    destruct (S a Ha) as [L D]. cbn [map concat].
    destruct (enc a ++ concat (map enc l)) as [|b v] eqn:E.
    + exfalso. apply app_eq_nil in E. destruct E as [E _]. rewrite E in L. cbn in L. lia.
    + cbn [dec_all]. rewrite <- E. rewrite D by lia. cbn [bind fst snd].
      rewrite IH by (cbn in F; lia). reflexivity.
Qed.

Lemma length_le_sum {A : Type} (P : A -> Prop) (len : A -> Z) l :
  (forall a, P a -> 0 < len a) -> Forall P l -> Z.of_nat (length l) <= sum_len len l.
Proof.
  intros N H. induction H as [|a l Ha H IH]; [cbn; lia|].
  cbn [sum_len fold_right length]. change (fold_right _ 0 l) with (sum_len len l).
  specialize (N a Ha). lia.
Qed.

Lemma vec_sound {A : Type} (P : A -> Prop) len enc dec : sound P len enc dec ->
  (forall a, P a -> 0 < len a) ->
  sound (Forall P) (len_vec len) (enc_vec len enc) (dec_vec dec).
Proof.
  intros S N l H. pose proof (sum_len_size P len enc dec l S H) as E. split.
  - unfold len_vec, enc_vec. symmetry. now apply header_size.
  - intros M rest. unfold len_vec in M. pose proof (tlv_len_ge (sum_len len l)).
    unfold dec_vec, enc_vec. rewrite dec_header; [|exact E|lia]. cbn [bind fst snd].
    rewrite (dec_all_enc P len enc dec l S N H); [reflexivity|lia|].
    pose proof (length_le_sum P len l N H). unfold size in E. lia.
Qed.

Lemma fields_sound {A : Type} (P : A -> Prop) len enc dec : sound P len enc dec ->
  sound P (fun a => tlv_len (len a)) (fun a => enc_fields (len a) (enc a)) (dec_fields dec).
Proof.
  intros S a H. destruct (S a H) as [L D]. split.
  - unfold enc_fields. symmetry. now apply header_size.
  - intros M rest. pose proof (tlv_len_ge (len a)). unfold dec_fields, enc_fields.
    rewrite dec_header; [|exact L|lia]. cbn [bind fst snd].
    specialize (D ltac:(lia) []). rewrite app_nil_r in D. rewrite D. reflexivity.
Qed.

(** * Durations *)
Definition duration_ok (d : Z) : Prop := MIN_DURATION <= d <= MAX_DURATION.
Lemma duration_int d : duration_ok d -> int_ok (- 2 ^ 127) (2 ^ 127 - 1) d.
Proof. unfold duration_ok, int_ok, MIN_DURATION, MAX_DURATION, CENTURY. lia. Qed.
Lemma from_total_id d : duration_ok d -> from_total_nanoseconds d = d.
Proof. unfold duration_ok, from_total_nanoseconds. lia. Qed.

Lemma len_nonneg {A : Type} (P : A -> Prop) len enc dec a : sound P len enc dec -> P a -> 0 <= len a.
Proof. intros S H. rewrite (proj1 (S a H)). apply size_nonneg. Qed.

Lemma len_int_pos z : 0 < len_int z.
Proof. unfold len_int. pose proof (tlv_len_ge (Z.of_nat (int_octets z))). lia. Qed.
Lemma len_bool_pos b : 0 < len_bool b.
Proof. reflexivity. Qed.
Lemma len_enum_pos z : 0 < len_enum z.
Proof. unfold len_enum. pose proof (tlv_len_ge (Z.of_nat (int_octets z))). lia. Qed.

(** * From the encoder to the decoder *)
Lemma sound_der {A : Type} (P : A -> Prop) len enc dec a : sound P len enc dec -> P a ->
  len a <= MAX_LEN -> to_der len enc a = Ok (enc a) /\ from_der dec (enc a) = Ok a.
Proof.
  intros S H M. destruct (S a H) as [L D]. split.
  - unfold to_der. destruct (Z.ltb_spec MAX_LEN (len a)); [lia|]. rewrite L, Z.eqb_refl. reflexivity.
  - unfold from_der. specialize (D M []). rewrite app_nil_r in D. now rewrite D.
Qed.
