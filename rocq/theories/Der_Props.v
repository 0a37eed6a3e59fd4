(** C25: configurations survive their DER encoding. *)
From Verif Require Import Base RustStd Der_Model Der_Proofs.
From Verif Require Import Arc_Model Arc_Proofs Sc_Model Sched_Model.
Local Open Scope Z_scope.

(** * Small values *)
Lemma len_int_small z : - 2 ^ 127 <= z <= 2 ^ 127 - 1 -> len_int z <= MAX_LEN.
Proof.
  intros H. destruct (int_octets_ok z H) as [_ B]. unfold len_int, tlv_len, enc_len.
  destruct (Z.ltb_spec (Z.of_nat (int_octets z)) 128); [|lia]. unfold size, MAX_LEN. cbn [length]. lia.
Qed.
Lemma dec_int_ok lo hi z rest : int_ok lo hi z -> dec_int lo hi (enc_int z ++ rest) = Ok (z, rest).
Proof. intros H. apply (int_sound lo hi z H). apply len_int_small. apply H. Qed.
Lemma len_int_size lo hi z : int_ok lo hi z -> size (enc_int z) = len_int z.
Proof. intros H. symmetry. apply (int_sound lo hi z H). Qed.
Lemma dec_bool_ok b rest : dec_bool (enc_bool b ++ rest) = Ok (b, rest).
Proof. apply (bool_sound b I). now destruct b. Qed.
Lemma len_bool_size b : size (enc_bool b) = len_bool b.
Proof. symmetry. apply (bool_sound b I). Qed.
Lemma dec_duration_ok d rest : duration_ok d -> dec_duration (enc_int d ++ rest) = Ok (d, rest).
Proof.
  intros H. unfold dec_duration, dec_i128. rewrite dec_int_ok by (now apply duration_int).
  cbn [bind fst snd]. now rewrite from_total_id.
Qed.
Lemma duration_size d : duration_ok d -> size (enc_int d) = len_int d.
Proof. intros H. apply (len_int_size _ _ d (duration_int d H)). Qed.

Lemma handoff_sound : sound (fun _ => True) len_handoff enc_handoff dec_handoff.
Proof. apply enum_sound; intros []; cbn; (reflexivity || lia). Qed.
Lemma mode_sound : sound (fun _ => True) len_mode enc_mode dec_mode.
Proof. apply enum_sound; intros []; cbn; (reflexivity || lia). Qed.
Lemma type_sound : sound (fun _ => True) len_type enc_type dec_type.
Proof. apply enum_sound; intros []; cbn; (reflexivity || lia). Qed.
Lemma dec_handoff_ok h rest : dec_handoff (enc_handoff h ++ rest) = Ok (h, rest).
Proof. apply (handoff_sound h I). destruct h; cbn; unfold MAX_LEN; lia. Qed.
Lemma handoff_size h : size (enc_handoff h) = len_handoff h.
Proof. symmetry. apply (handoff_sound h I). Qed.
Lemma dec_mode_ok h rest : dec_mode (enc_mode h ++ rest) = Ok (h, rest).
Proof. apply (mode_sound h I). destruct h; cbn; unfold MAX_LEN; lia. Qed.
Lemma mode_size h : size (enc_mode h) = len_mode h.
Proof. symmetry. apply (mode_sound h I). Qed.
Lemma dec_type_ok h rest : dec_type (enc_type h ++ rest) = Ok (h, rest).
Proof. apply (type_sound h I). destruct h; cbn; unfold MAX_LEN; lia. Qed.
Lemma type_size h : size (enc_type h) = len_type h.
Proof. symmetry. apply (type_sound h I). Qed.

Lemma u8_ok z : 0 <= z <= 255 -> int_ok 0 255 z.
Proof. unfold int_ok. lia. Qed.

(** * What the types hold *)
Definition cadence_ok (c : cadence_policy) : Prop :=
  match c with Continuous => True | Intermittent on off => duration_ok on /\ duration_ok off end.
Definition scheduler_ok (s : scheduler) : Prop :=
  cadence_ok (cadence s) /\ 0 <= min_samples s <= 4294967295 /\
  match sample_alignment s with Some d => duration_ok d | None => True end.

Lemma cadence_sound : sound cadence_ok len_cadence enc_cadence dec_cadence.
Proof.
  intros [|on off] H.
  - split; [reflexivity|]. intros _ rest. unfold dec_cadence, dec_u8, enc_cadence.
    rewrite dec_int_ok by (apply u8_ok; lia). reflexivity.
  - destruct H as [H1 H2]. split.
    + unfold len_cadence, enc_cadence. rewrite !size_app, (duration_size on), (duration_size off) by assumption.
      rewrite (len_int_size 0 255) by (apply u8_ok; lia). lia.
    + intros _ rest. unfold dec_cadence, dec_u8, enc_cadence. rewrite <- !app_assoc.
      rewrite dec_int_ok by (apply u8_ok; lia). cbn [bind fst snd]. change (1 =? 0) with false.
      change (1 =? 1) with true. cbv iota. rewrite dec_duration_ok by assumption. cbn [bind fst snd].
      now rewrite dec_duration_ok by assumption.
Qed.
Lemma len_cadence_small c : cadence_ok c -> len_cadence c <= 1000.
Proof.
  assert (K : forall z, - 2 ^ 127 <= z <= 2 ^ 127 - 1 -> len_int z <= 19).
  { intros z H. destruct (int_octets_ok z H) as [_ B]. unfold len_int, tlv_len, enc_len.
    destruct (Z.ltb_spec (Z.of_nat (int_octets z)) 128); [|lia]. unfold size. cbn [length]. lia. }
  destruct c as [|on off]; intros H; unfold len_cadence.
  - pose proof (K 0). lia.
  - destruct H as [H1 H2]. apply duration_int in H1, H2. pose proof (K on (proj2 H1)).
    pose proof (K off (proj2 H2)). pose proof (K 1). lia.
Qed.

Lemma scheduler_sound : sound scheduler_ok len_scheduler enc_scheduler dec_scheduler.
Proof.
  intros s (H1 & H2 & H3).
  assert (U : int_ok 0 4294967295 (min_samples s)) by (unfold int_ok; lia).
  pose proof (cadence_sound _ H1) as [L D]. pose proof (len_cadence_small _ H1) as B. split.
  - unfold len_scheduler, enc_scheduler.
    destruct (sample_alignment s) as [d|]; rewrite !size_app, handoff_size, !len_bool_size,
      (len_int_size 0 4294967295) by assumption.
    + rewrite duration_size by assumption. lia.
    + lia.
  - intros _ rest. unfold dec_scheduler, enc_scheduler. rewrite <- !app_assoc.
    rewrite dec_handoff_ok. cbn [bind fst snd]. rewrite D by (unfold MAX_LEN; lia). cbn [bind fst snd].
    unfold dec_u32. rewrite dec_int_ok by exact U. cbn [bind fst snd].
    destruct s as [h c m [d|]]; cbn [sample_alignment handoff cadence min_samples] in *.
    + rewrite <- app_assoc, dec_bool_ok. cbn [bind fst snd]. unfold dec_i128.
      rewrite dec_int_ok by (now apply duration_int). cbn [bind fst snd]. now rewrite from_total_id.
    + rewrite dec_bool_ok. reflexivity.
Qed.

Section Scales.
Context {scale : Type} (scale_code : scale -> Z) (scale_of : Z -> scale).
(** hifitime's [TimeScale] as an octet and back. *)
Definition scales : Prop := (forall s, scale_of (scale_code s) = s) /\ forall s, 0 <= scale_code s < 128.

Definition strand_ok (s : @der_strand scale) : Prop := duration_ok (d_start s) /\ duration_ok (d_end s).
Definition trkconfig_ok (t : @der_trkconfig scale) : Prop :=
  match t_scheduler t with Some s => scheduler_ok s | None => True end /\
  duration_ok (t_sampling t) /\
  match t_strands t with Some l => Forall strand_ok l | None => True end.

Hypothesis scales_ok : scales.
Notation enc_strand := (enc_strand scale_code).
Notation dec_strand := (dec_strand scale_of).

Lemma strand_sound : sound strand_ok len_strand enc_strand dec_strand.
Proof.
  destruct scales_ok as [R B].
  assert (K : forall s, int_ok 0 255 (scale_code s)) by (intros s; specialize (B s); apply u8_ok; lia).
  assert (L1 : forall s, len_int (scale_code s) = len_int 1).
  { intros s. specialize (B s). unfold len_int, int_octets. cbn [int_octets_from].
    assert (F : fits 1 (scale_code s) = true).
    { unfold fits. apply andb_true_iff. split; [apply Z.leb_le|apply Z.ltb_lt]; cbn; lia. }
    rewrite F. reflexivity. }
  intros s [H1 H2]. split.
  - unfold len_strand, Der_Model.enc_strand. rewrite !size_app, (duration_size (d_start s)), (duration_size (d_end s)) by assumption.
    rewrite !(len_int_size 0 255) by apply K. rewrite !L1. lia.
  - intros _ rest. unfold Der_Model.dec_strand, Der_Model.enc_strand, dec_i128, dec_u8. rewrite <- !app_assoc.
    rewrite dec_int_ok by (now apply duration_int). cbn [bind fst snd].
    rewrite dec_int_ok by apply K. cbn [bind fst snd].
    rewrite dec_int_ok by (now apply duration_int). cbn [bind fst snd].
    rewrite dec_int_ok by apply K. cbn [bind fst snd].
    rewrite !from_total_id, !R by assumption. now destruct s.
Qed.
Lemma strand_pos s : 0 < @len_strand scale s.
Proof.
  unfold len_strand. pose proof (len_int_pos (d_start s)). pose proof (len_int_pos (d_end s)).
  pose proof (len_int_pos 1). lia.
Qed.

Lemma trkconfig_sound :
  sound trkconfig_ok len_trkconfig (enc_trkconfig scale_code) (dec_trkconfig scale_of).
Proof.
  intros t (H1 & H2 & H3).
  pose proof (vec_sound strand_ok _ _ _ strand_sound (fun s _ => strand_pos s)) as VS.
  unfold len_trkconfig, enc_trkconfig, dec_trkconfig.
  destruct t as [sc sa st]; cbn [t_scheduler t_sampling t_strands] in *. split.
  - rewrite !size_app, duration_size by assumption. destruct sc as [s|], st as [l|];
      rewrite ?size_app, !len_bool_size; rewrite ?(proj1 (scheduler_sound _ H1)), ?(proj1 (VS _ H3)); lia.
  - intros M rest. rewrite <- !app_assoc.
    assert (MS : match sc with Some s => len_scheduler s <= MAX_LEN | None => True end /\
                 match st with Some l => len_vec len_strand l <= MAX_LEN | None => True end).
    { pose proof (len_int_pos sa). pose proof (len_bool_pos true). pose proof (len_bool_pos false).
      destruct sc as [s|], st as [l|]; (split; [|try exact I]); try exact I;
        try (pose proof (len_nonneg _ _ _ _ _ scheduler_sound H1));
        try (pose proof (len_nonneg _ _ _ _ _ VS H3)); lia. }
    destruct MS as [MS MT]. unfold dec_i128.
    assert (A : forall tl, bind (dec_bool ((match sc with
                 | Some s => enc_bool true ++ enc_scheduler s | None => enc_bool false end) ++ tl))
             (fun a => if fst a then bind (dec_scheduler (snd a)) (fun s => Ok (Some (fst s), snd s))
                       else Ok (None, snd a)) = Ok (sc, tl)).
    { intros tl. destruct sc as [s|].
      - rewrite <- app_assoc, dec_bool_ok. cbn [bind fst snd].
        rewrite (proj2 (scheduler_sound _ H1) MS). reflexivity.
      - rewrite dec_bool_ok. reflexivity. }
    assert (C : forall tl, bind (dec_bool ((match st with
                 | Some l => enc_bool true ++ enc_vec len_strand enc_strand l | None => enc_bool false end) ++ tl))
             (fun a => if fst a then bind (dec_vec dec_strand (snd a)) (fun s => Ok (Some (fst s), snd s))
                       else Ok (None, snd a)) = Ok (st, tl)).
    { intros tl. destruct st as [l|].
      - rewrite <- app_assoc, dec_bool_ok. cbn [bind fst snd].
        rewrite (proj2 (VS _ H3) MT). reflexivity.
      - rewrite dec_bool_ok. reflexivity. }
    assert (BB : forall (E X Y Z : Type) (x : res E X) (f : X -> res E Y) (g : Y -> res E Z),
               bind x (fun a => bind (f a) g) = bind (bind x f) g)
      by (intros; now destruct x).
    rewrite BB, A. cbn [bind fst snd]. rewrite dec_int_ok by (now apply duration_int). cbn [bind fst snd].
    rewrite BB, C. cbn [bind fst snd]. now rewrite from_total_id.
Qed.

(** ** C25.  Schedulers, strands and tracking configurations: the encoder succeeds when the
    encoding is shorter than 256 MB, and the decoder returns an equal value and what follows. *)
Theorem C25_scheduler_round_trip : forall s, scheduler_ok s ->
  exists b, to_der len_scheduler enc_scheduler s = Ok b /\ from_der dec_scheduler b = Ok s /\
    forall rest, dec_scheduler (b ++ rest) = Ok (s, rest).
Proof.
  intros s H. exists (enc_scheduler s).
  assert (M : len_scheduler s <= MAX_LEN).
  { destruct H as (H1 & H2 & H3). unfold len_scheduler. pose proof (len_cadence_small _ H1).
    assert (K : forall z, - 2 ^ 127 <= z <= 2 ^ 127 - 1 -> len_int z <= 19).
    { intros z Hz. destruct (int_octets_ok z Hz) as [_ B]. unfold len_int, tlv_len, enc_len.
      destruct (Z.ltb_spec (Z.of_nat (int_octets z)) 128); [|lia]. unfold size. cbn [length]. lia. }
    pose proof (K (min_samples s)). assert (len_handoff (handoff s) <= 3) by (now destruct (handoff s)).
    unfold MAX_LEN. change (len_bool _) with 3.
    destruct (sample_alignment s) as [d|]; [|lia]. apply duration_int in H3.
    pose proof (K d (proj2 H3)). lia. }
  destruct (sound_der _ _ _ _ s scheduler_sound H M) as [A B]. split; [exact A|]. split; [exact B|].
  now apply scheduler_sound.
Qed.

Theorem C25_strand_round_trip : forall s, strand_ok s ->
  exists b, to_der len_strand enc_strand s = Ok b /\ from_der dec_strand b = Ok s /\
    forall rest, dec_strand (b ++ rest) = Ok (s, rest).
Proof.
  intros s H. exists (enc_strand s).
  assert (M : len_strand s <= MAX_LEN).
  { destruct H as [H1 H2]. unfold len_strand.
    assert (K : forall z, - 2 ^ 127 <= z <= 2 ^ 127 - 1 -> len_int z <= 19).
    { intros z Hz. destruct (int_octets_ok z Hz) as [_ B]. unfold len_int, tlv_len, enc_len.
      destruct (Z.ltb_spec (Z.of_nat (int_octets z)) 128); [|lia]. unfold size. cbn [length]. lia. }
    apply duration_int in H1, H2. pose proof (K (d_start s) (proj2 H1)).
    pose proof (K (d_end s) (proj2 H2)). pose proof (K 1). unfold MAX_LEN. lia. }
  destruct (sound_der _ _ _ _ s strand_sound H M) as [A B]. split; [exact A|]. split; [exact B|].
  now apply strand_sound.
Qed.

Theorem C25_trkconfig_round_trip : forall t b, trkconfig_ok t ->
  to_der len_trkconfig (enc_trkconfig scale_code) t = Ok b ->
  from_der (dec_trkconfig scale_of) b = Ok t /\
  forall rest, dec_trkconfig scale_of (b ++ rest) = Ok (t, rest).
Proof.
  intros t b H E. assert (M : len_trkconfig t <= MAX_LEN).
  { unfold to_der in E. destruct (Z.ltb_spec MAX_LEN (len_trkconfig t)); [discriminate|lia]. }
  destruct (sound_der _ _ _ _ t trkconfig_sound H M) as [A B].
  assert (b = enc_trkconfig scale_code t) as -> by congruence. split; [exact B|].
  now apply trkconfig_sound.
Qed.
(** The only failure of the encoder is a list of strands of 256 MB. *)
Theorem C25_trkconfig_encodes : forall t, trkconfig_ok t ->
  (match t_strands t with Some l => Z.of_nat (length l) <= 5000000 | None => True end) ->
  exists b, to_der len_trkconfig (enc_trkconfig scale_code) t = Ok b.
Proof.
  intros t H N. exists (enc_trkconfig scale_code t).
  apply (sound_der _ _ _ _ t trkconfig_sound H).
  assert (K : forall z, - 2 ^ 127 <= z <= 2 ^ 127 - 1 -> len_int z <= 19).
  { intros z Hz. destruct (int_octets_ok z Hz) as [_ B]. unfold len_int, tlv_len, enc_len.
    destruct (Z.ltb_spec (Z.of_nat (int_octets z)) 128); [|lia]. unfold size. cbn [length]. lia. }
  destruct H as (H1 & H2 & H3). unfold len_trkconfig. change (len_bool _) with 3. change (len_bool _) with 3.
  apply duration_int in H2. pose proof (K _ (proj2 H2)).
  assert (S : match t_scheduler t with Some s => 3 + len_scheduler s | None => 3 end <= 2000).
  { destruct (t_scheduler t) as [s|]; [|lia]. destruct H1 as (G1 & G2 & G3). unfold len_scheduler.
    pose proof (len_cadence_small _ G1). pose proof (K (min_samples s)).
    assert (len_handoff (handoff s) <= 3) by (now destruct (handoff s)).
    change (len_bool _) with 3. destruct (sample_alignment s) as [d|]; [|lia].
    apply duration_int in G3. pose proof (K d (proj2 G3)). lia. }
  destruct (t_strands t) as [l|]; [|unfold MAX_LEN; lia].
  assert (Q : sum_len len_strand l <= 44 * Z.of_nat (length l)).
  { clear -H3 K. induction H3 as [|s l [A B] H IH]; [cbn; lia|].
    cbn [sum_len fold_right length]. change (fold_right _ 0 l) with (sum_len (@len_strand scale) l).
    apply duration_int in A, B. pose proof (K _ (proj2 A)). pose proof (K _ (proj2 B)).
    assert (len_int 1 = 3) by reflexivity.
    assert (len_strand s <= 44) by (unfold len_strand; lia). lia. }
  unfold len_vec, tlv_len.
  assert (size (enc_len (sum_len len_strand l)) <= 5).
  { unfold enc_len. destruct (sum_len len_strand l <? 128); [cbn; lia|].
    rewrite size_cons. unfold size. rewrite be_length. unfold octets.
    repeat match goal with |- context [if ?b then _ else _] => destruct b end; lia. }
  unfold MAX_LEN. lia.
Qed.
End Scales.

(** Handoffs, guidance modes and types of measurement. *)
Theorem C25_codes_round_trip :
  (forall h rest, dec_handoff (enc_handoff h ++ rest) = Ok (h, rest)) /\
  (forall m rest, dec_mode (enc_mode m ++ rest) = Ok (m, rest)) /\
  (forall t rest, dec_type (enc_type t ++ rest) = Ok (t, rest)).
Proof. split; [exact dec_handoff_ok|]. split; [exact dec_mode_ok|exact dec_type_ok]. Qed.

Section Reals.
Context {F : Type} (real_value : F -> bytes) (of_real_value : bytes -> option F) (storable : F -> Prop).
(** What is asked of the REAL values of the [der] crate. *)
Definition reals : Prop := forall x, storable x ->
  of_real_value (real_value x) = Some x /\ size (real_value x) < 128.
Hypothesis reals_ok : reals.
Notation enc_f64 := (enc_f64 real_value).
Notation len_f64 := (len_f64 real_value).
Notation dec_f64 := (dec_f64 of_real_value).

Lemma f64_sound : sound storable len_f64 enc_f64 dec_f64.
Proof.
  intros x H. destruct (reals_ok x H) as [R B]. split.
  - unfold Der_Model.len_f64, Der_Model.enc_f64. symmetry. now apply header_size.
  - intros _ rest. unfold Der_Model.dec_f64, Der_Model.enc_f64.
    rewrite dec_enc_tlv by (unfold MAX_LEN; lia). cbn [bind fst snd]. now rewrite R.
Qed.
Lemma f64_small x : storable x -> 0 <= len_f64 x <= 130.
Proof.
  intros H. destruct (reals_ok x H) as [R B]. unfold Der_Model.len_f64, tlv_len, enc_len.
  pose proof (size_nonneg (real_value x)). destruct (Z.ltb_spec (size (real_value x)) 128); [|lia].
  change (size [size (real_value x)]) with 1. lia.
Qed.
Lemma dec_f64_ok x rest : storable x -> dec_f64 (enc_f64 x ++ rest) = Ok (x, rest).
Proof. intros H. apply (f64_sound x H). pose proof (f64_small x H). unfold MAX_LEN. lia. Qed.
Lemma f64_size x : storable x -> size (enc_f64 x) = len_f64 x.
Proof. intros H. symmetry. now apply f64_sound. Qed.

Definition thruster_ok (t : @der_thruster F) : Prop := storable (th_thrust t) /\ storable (th_isp t).
Definition white_ok (w : @der_white F) : Prop := storable (w_mean w) /\ storable (w_sigma w).
(** Never sampled: the state of the process is not encoded. *)
Definition gm_ok (g : @der_gm F) : Prop :=
  duration_ok (g_tau g) /\ storable (g_noise g) /\
  match g_constant g with Some c => storable c | None => True end /\
  g_prev g = None /\ g_init g = None.
Definition noise_ok (n : @der_noise F) : Prop :=
  match n_white n with Some w => white_ok w | None => True end /\
  match n_bias n with Some g => gm_ok g | None => True end.

Lemma thruster_sound : sound thruster_ok (len_thruster real_value) (enc_thruster real_value)
  (dec_thruster of_real_value).
Proof.
  intros t [H1 H2]. split.
  - unfold len_thruster, enc_thruster. rewrite size_app, !f64_size by assumption. reflexivity.
  - intros _ rest. unfold dec_thruster, enc_thruster. rewrite <- app_assoc.
    rewrite dec_f64_ok by assumption. cbn [bind fst snd]. rewrite dec_f64_ok by assumption.
    now destruct t.
Qed.
Lemma thruster_small t : thruster_ok t -> 0 <= len_thruster real_value t <= 260.
Proof. intros [H1 H2]. pose proof (f64_small _ H1). pose proof (f64_small _ H2). unfold len_thruster. lia. Qed.

Lemma white_sound : sound white_ok (len_white real_value) (enc_white real_value) (dec_white of_real_value).
Proof.
  apply (fields_sound white_ok (white_fields_len real_value)
           (fun w => enc_f64 (w_mean w) ++ enc_f64 (w_sigma w))).
  intros w [H1 H2]. split.
  - unfold white_fields_len. rewrite size_app, !f64_size by assumption. reflexivity.
  - intros _ rest. rewrite <- app_assoc. rewrite dec_f64_ok by assumption. cbn [bind fst snd].
    rewrite dec_f64_ok by assumption. now destruct w.
Qed.
Lemma enc_len_le n : size (enc_len n) <= 5.
Proof.
  unfold enc_len. destruct (n <? 128); [cbn; lia|]. rewrite size_cons. unfold size.
  rewrite be_length. unfold octets.
  repeat match goal with |- context [if ?b then _ else _] => destruct b end; lia.
Qed.
Lemma white_small w : white_ok w -> 0 <= len_white real_value w <= 270.
Proof.
  intros [H1 H2]. pose proof (f64_small _ H1). pose proof (f64_small _ H2).
  unfold len_white, tlv_len, white_fields_len.
  pose proof (enc_len_le (len_f64 (w_mean w) + len_f64 (w_sigma w))).
  pose proof (size_nonneg (enc_len (len_f64 (w_mean w) + len_f64 (w_sigma w)))). lia.
Qed.

Lemma gm_sound : sound gm_ok (len_gm real_value) (enc_gm real_value) (dec_gm of_real_value).
Proof.
  intros [ta q c pe ini] (H1 & H2 & H3 & H4 & H5).
  cbn [g_tau g_noise g_constant g_prev g_init] in *. subst pe ini.
  unfold len_gm, enc_gm, dec_gm. cbn [g_tau g_noise g_constant]. split.
  - destruct c as [c|]; rewrite !size_app, duration_size, f64_size by assumption;
      rewrite ?size_app, !len_bool_size, ?f64_size by assumption; lia.
  - intros _ rest. rewrite <- !app_assoc. rewrite dec_duration_ok by assumption. cbn [bind fst snd].
    rewrite dec_f64_ok by assumption. cbn [bind fst snd]. destruct c as [c|].
    + rewrite <- app_assoc, dec_bool_ok. cbn [bind fst snd]. rewrite dec_f64_ok by assumption. reflexivity.
    + rewrite dec_bool_ok. reflexivity.
Qed.
Lemma int_19 z : - 2 ^ 127 <= z <= 2 ^ 127 - 1 -> 0 <= len_int z <= 19.
Proof.
  intros Hz. destruct (int_octets_ok z Hz) as [_ B]. pose proof (len_int_pos z). split; [lia|].
  unfold len_int, tlv_len, enc_len.
  destruct (Z.ltb_spec (Z.of_nat (int_octets z)) 128); [|lia]. unfold size. cbn [length]. lia.
Qed.
Lemma gm_small g : gm_ok g -> 0 <= len_gm real_value g <= 300.
Proof.
  intros (H1 & H2 & H3 & _). apply duration_int in H1. pose proof (int_19 _ (proj2 H1)).
  pose proof (f64_small _ H2). unfold len_gm. change (len_bool true) with 3. change (len_bool false) with 3.
  destruct (g_constant g) as [c|]; [pose proof (f64_small _ H3)|]; lia.
Qed.

Lemma noise_flags_ok (n : @der_noise F) : 0 <= noise_flags n <= 255 /\
  Z.testbit (noise_flags n) 0 = (match n_white n with Some _ => true | None => false end) /\
  Z.testbit (noise_flags n) 1 = (match n_bias n with Some _ => true | None => false end).
Proof. destruct n as [[]  []]; cbn; repeat split; lia || reflexivity. Qed.

Lemma noise_sound : sound noise_ok (len_noise real_value) (enc_noise real_value) (dec_noise of_real_value).
Proof.
  intros n [H1 H2]. destruct (noise_flags_ok n) as (FB & F0 & F1). apply u8_ok in FB.
  unfold len_noise, enc_noise, dec_noise. split.
  - rewrite !size_app, (len_int_size 0 255) by assumption.
    destruct (n_white n) as [w|], (n_bias n) as [g|]; cbn [enc_opt len_opt];
      rewrite ?(proj1 (white_sound _ H1)), ?(proj1 (gm_sound _ H2)); cbn [size length Z.of_nat];
      unfold size; cbn [length]; lia.
  - intros _ rest. unfold dec_u8. rewrite <- !app_assoc. rewrite dec_int_ok by exact FB. cbn [bind fst snd].
    rewrite F0, F1. destruct n as [[w|] [g|]]; cbn [n_white n_bias enc_opt app] in *.
    + rewrite (proj2 (white_sound _ H1)) by (pose proof (white_small _ H1); unfold MAX_LEN; lia).
      cbn [bind fst snd].
      rewrite (proj2 (gm_sound _ H2)) by (pose proof (gm_small _ H2); unfold MAX_LEN; lia). reflexivity.
    + rewrite (proj2 (white_sound _ H1)) by (pose proof (white_small _ H1); unfold MAX_LEN; lia). reflexivity.
    + cbn [bind fst snd].
      rewrite (proj2 (gm_sound _ H2)) by (pose proof (gm_small _ H2); unfold MAX_LEN; lia). reflexivity.
    + reflexivity.
Qed.
Lemma noise_small n : noise_ok n -> 0 < len_noise real_value n <= 600.
Proof.
  intros [H1 H2]. destruct (noise_flags_ok n) as (FB & _). pose proof (int_19 (noise_flags n)).
  pose proof (len_int_pos (noise_flags n)). unfold len_noise.
  destruct (n_white n) as [w|], (n_bias n) as [g|]; cbn [len_opt];
    try (pose proof (white_small _ H1)); try (pose proof (gm_small _ H2)); lia.
Qed.

(** ** Thrusters and noise models (that were not sampled yet). *)
Theorem C25_thruster_round_trip : forall t, thruster_ok t ->
  exists b, to_der (len_thruster real_value) (enc_thruster real_value) t = Ok b /\
    from_der (dec_thruster of_real_value) b = Ok t /\
    forall rest, dec_thruster of_real_value (b ++ rest) = Ok (t, rest).
Proof.
  intros t H. exists (enc_thruster real_value t).
  assert (M : len_thruster real_value t <= MAX_LEN) by (pose proof (thruster_small t H); unfold MAX_LEN; lia).
  destruct (sound_der _ _ _ _ t thruster_sound H M) as [A B]. split; [exact A|]. split; [exact B|].
  now apply thruster_sound.
Qed.
Theorem C25_noise_round_trip_partial : forall n, noise_ok n ->
  exists b, to_der (len_noise real_value) (enc_noise real_value) n = Ok b /\
    from_der (dec_noise of_real_value) b = Ok n /\
    forall rest, dec_noise of_real_value (b ++ rest) = Ok (n, rest).
Proof.
  intros n H. exists (enc_noise real_value n).
  assert (M : len_noise real_value n <= MAX_LEN) by (pose proof (noise_small n H); unfold MAX_LEN; lia).
  destruct (sound_der _ _ _ _ n noise_sound H M) as [A B]. split; [exact A|]. split; [exact B|].
  now apply noise_sound.
Qed.

(** ** The state of a Gauss-Markov process that was sampled is lost: the next sample of the
    decoded process starts over. *)
Theorem C25_sampled_noise_refuted : forall x, storable x -> exists n b n',
  to_der (len_noise real_value) (enc_noise real_value) n = Ok b /\
  from_der (dec_noise of_real_value) b = Ok n' /\ n' <> n.
Proof.
  intros x H.
  set (g e i := {| g_tau := 60000000000; g_noise := x; g_constant := None; g_prev := e; g_init := i |}).
  set (fresh := {| n_white := None; n_bias := Some (g None None) |}).
  set (used := {| n_white := None; n_bias := Some (g (Some 0) (Some x)) |}).
  assert (OK : noise_ok fresh).
  { split; [exact I|]. repeat split; cbn; try assumption; unfold duration_ok, MIN_DURATION, MAX_DURATION, CENTURY; lia. }
  destruct (C25_noise_round_trip_partial fresh OK) as (b & B1 & B2 & _).
  exists used, b, fresh. split; [|split].
  - rewrite <- B1. reflexivity.
  - exact B2.
  - discriminate.
Qed.

Section Station.
Context {loc : Type} (location : codec loc) (utf8 : bytes -> bool) (loc_ok : loc -> Prop).
Hypothesis location_ok : sound loc_ok (c_len location) (c_enc location) (c_dec location).

(** A name in UTF-8, each type once, each type with one noise (an [IndexSet], an [IndexMap]). *)
Definition station_ok (g : @der_station F loc) : Prop :=
  utf8 (gs_name g) = true /\ loc_ok (gs_location g) /\ NoDup (gs_types g) /\
  match gs_integration g with Some d => duration_ok d | None => True end /\
  match gs_timestamp_noise g with Some n => noise_ok n | None => True end /\
  match gs_noises g with
  | Some l => NoDup (map fst l) /\ Forall (fun p => noise_ok (snd p)) l
  | None => True
  end.

Lemma pair_sound : sound (fun p => noise_ok (snd p)) (len_pair real_value) (enc_pair real_value)
  (dec_pair of_real_value).
Proof.
  apply (fields_sound (fun p => noise_ok (snd p)) (pair_fields_len real_value)
           (fun p => enc_type (fst p) ++ enc_noise real_value (snd p))).
  intros [t n] H. cbn [fst snd] in *. split.
  - unfold pair_fields_len. cbn [fst snd]. rewrite size_app, type_size.
    now rewrite (proj1 (noise_sound n H)).
  - intros _ rest. rewrite <- app_assoc, dec_type_ok. cbn [bind fst snd].
    rewrite (proj2 (noise_sound n H)) by (pose proof (noise_small n H); unfold MAX_LEN; lia). reflexivity.
Qed.

Lemma index_set_id l : NoDup l -> index_set l = l.
Proof.
  intros H. unfold index_set.
  assert (G : forall l s, NoDup (s ++ l) ->
    fold_left (fun s t => if existsb (type_eqb t) s then s else s ++ [t]) l s = s ++ l).
  { clear. induction l as [|t l IH]; intros s H; cbn [fold_left]; [now rewrite app_nil_r|].
    destruct (existsb (type_eqb t) s) eqn:E.
    - exfalso. apply existsb_exists in E. destruct E as (x & X1 & X2). apply type_eqb_eq in X2. subst x.
      apply NoDup_remove_2 in H. apply H. apply in_or_app. now left.
    - rewrite IH by (now rewrite <- app_assoc). now rewrite <- app_assoc. }
  now apply (G l []).
Qed.
Lemma index_map_id {V : Type} (l : list (msr_type * V)) : NoDup (map fst l) ->
  fold_left (fun m p => im_insert type_eqb (fst p) (snd p) m) l [] = l.
Proof.
  intros H.
  assert (I : forall k v (s : list (msr_type * V)), ~ In k (map fst s) -> im_insert type_eqb k v s = s ++ [(k, v)]).
  { induction s as [|[k' v'] s IH]; intros N; cbn [im_insert app]; [reflexivity|].
    destruct (type_eqb k k') eqn:E.
    - apply type_eqb_eq in E. subst k'. exfalso. apply N. now left.
    - rewrite IH; [reflexivity|]. intros X. apply N. now right. }
  assert (G : forall l s : list (msr_type * V), NoDup (map fst (s ++ l)) ->
    fold_left (fun m p => im_insert type_eqb (fst p) (snd p) m) l s = s ++ l).
  { clear H l. induction l as [|[k v] l IH]; intros s H; cbn [fold_left fst snd]; [now rewrite app_nil_r|].
    rewrite I.
    - rewrite IH by (now rewrite <- app_assoc). now rewrite <- app_assoc.
    - rewrite map_app in H. cbn [map fst] in H. apply NoDup_remove_2 in H. intros X. apply H.
      apply in_or_app. now left. }
  now apply (G l []).
Qed.

Lemma station_flags_ok (g : @der_station F loc) : 0 <= station_flags g <= 255 /\
  Z.testbit (station_flags g) 0 = (match gs_integration g with Some _ => true | None => false end) /\
  Z.testbit (station_flags g) 1 = (match gs_timestamp_noise g with Some _ => true | None => false end) /\
  Z.testbit (station_flags g) 2 = (match gs_noises g with Some _ => true | None => false end).
Proof. destruct g as [? ? ? [] ? [] []]; cbn; repeat split; lia || reflexivity. Qed.

Lemma pair_pos p : noise_ok (snd p) -> 0 < len_pair real_value p.
Proof.
  intros H. unfold len_pair. pose proof (tlv_len_ge (pair_fields_len real_value p)).
  pose proof (noise_small _ H). pose proof (len_enum_pos (type_code (fst p))).
  unfold pair_fields_len, len_type in *. lia.
Qed.

Lemma station_sound : sound station_ok (len_station real_value location)
  (enc_station real_value location) (dec_station of_real_value location utf8).
Proof.
  intros g (H1 & H2 & H3 & H4 & H5 & H6). destruct (station_flags_ok g) as (FB & F0 & F1 & F2).
  apply u8_ok in FB.
  pose proof (vec_sound _ _ _ _ type_sound (fun t _ => len_enum_pos (type_code t))) as VT.
  pose proof (vec_sound _ _ _ _ pair_sound pair_pos) as VP.
  assert (T : Forall (fun _ : msr_type => True) (gs_types g)) by (apply Forall_forall; auto).
  assert (SN : size (enc_string (gs_name g)) = len_string (gs_name g))
    by (unfold enc_string, len_string; now apply header_size).
  assert (SI : size (enc_opt enc_int (gs_integration g)) = len_opt len_int (gs_integration g)).
  { destruct (gs_integration g); [now apply duration_size|reflexivity]. }
  assert (ST : size (enc_opt (enc_noise real_value) (gs_timestamp_noise g))
             = len_opt (len_noise real_value) (gs_timestamp_noise g)).
  { destruct (gs_timestamp_noise g); [symmetry; now apply noise_sound|reflexivity]. }
  assert (SS : size (enc_opt (enc_vec (len_pair real_value) (enc_pair real_value)) (gs_noises g))
             = len_opt (len_vec (len_pair real_value)) (gs_noises g)).
  { destruct (gs_noises g); [symmetry; now apply VP|reflexivity]. }
  pose proof (proj1 (location_ok _ H2)) as SL. pose proof (proj1 (VT _ T)) as SV. split.
  - unfold len_station, enc_station. rewrite !size_app, SN, SI, ST, SS, len_bool_size.
    rewrite (len_int_size 0 255) by exact FB. lia.
  - intros M rest. unfold len_station in M.
    rewrite <- SN, SL, SV, <- SI, <- ST, <- SS in M.
    pose proof (size_nonneg (enc_string (gs_name g))).
    pose proof (size_nonneg (c_enc location (gs_location g))).
    pose proof (size_nonneg (enc_vec len_type enc_type (gs_types g))).
    pose proof (size_nonneg (enc_opt enc_int (gs_integration g))).
    pose proof (size_nonneg (enc_opt (enc_noise real_value) (gs_timestamp_noise g))).
    pose proof (size_nonneg (enc_opt (enc_vec (len_pair real_value) (enc_pair real_value)) (gs_noises g))).
    pose proof (len_bool_pos (gs_light_time g)). pose proof (len_int_pos (station_flags g)).
    unfold dec_station, enc_station, dec_u8. rewrite <- !app_assoc.
    unfold dec_string, enc_string. rewrite dec_enc_tlv.
    2:{ rewrite SN in M. unfold len_string in M. pose proof (tlv_len_ge (size (gs_name g))). lia. }
    cbn [bind fst snd]. rewrite H1. cbn [bind fst snd].
    rewrite (proj2 (location_ok _ H2)) by lia. cbn [bind fst snd].
    rewrite (proj2 (VT _ T)) by lia. cbn [bind fst snd]. rewrite dec_bool_ok. cbn [bind fst snd].
    rewrite dec_int_ok by exact FB. cbn [bind fst snd]. rewrite F0, F1, F2.
    assert (A : forall tl, (if match gs_integration g with Some _ => true | None => false end
        then bind (dec_duration (enc_opt enc_int (gs_integration g) ++ tl)) (fun x => Ok (Some (fst x), snd x))
        else Ok (None, enc_opt enc_int (gs_integration g) ++ tl)) = Ok (gs_integration g, tl)).
    { intros tl. destruct (gs_integration g); [|reflexivity]. cbn [enc_opt].
      now rewrite dec_duration_ok by assumption. }
    rewrite A. cbn [bind fst snd].
    assert (B : forall tl, (if match gs_timestamp_noise g with Some _ => true | None => false end
        then bind (dec_noise of_real_value (enc_opt (enc_noise real_value) (gs_timestamp_noise g) ++ tl))
               (fun x => Ok (Some (fst x), snd x))
        else Ok (None, enc_opt (enc_noise real_value) (gs_timestamp_noise g) ++ tl))
        = Ok (gs_timestamp_noise g, tl)).
    { intros tl. destruct (gs_timestamp_noise g) as [n|]; [|reflexivity]. cbn [enc_opt].
      rewrite (proj2 (noise_sound n H5)) by (pose proof (noise_small n H5); unfold MAX_LEN; lia). reflexivity. }
    rewrite B. cbn [bind fst snd].
    destruct (gs_noises g) as [l|] eqn:GN.
    + cbn [enc_opt] in *. destruct H6 as [N6 N7].
      rewrite (proj2 (VP _ N7)) by (rewrite (proj1 (VP _ N7)); lia). cbn [bind fst snd].
      rewrite index_map_id, index_set_id by assumption. rewrite <- GN. now destruct g.
    + cbn [enc_opt app bind fst snd]. rewrite index_set_id by assumption. rewrite <- GN. now destruct g.
Qed.

(** ** Ground stations. *)
Theorem C25_station_round_trip_partial : forall g b, station_ok g ->
  to_der (len_station real_value location) (enc_station real_value location) g = Ok b ->
  from_der (dec_station of_real_value location utf8) b = Ok g /\
  forall rest, dec_station of_real_value location utf8 (b ++ rest) = Ok (g, rest).
Proof.
  intros g b H E. assert (M : len_station real_value location g <= MAX_LEN).
  { unfold to_der in E. destruct (Z.ltb_spec MAX_LEN (len_station real_value location g)); [discriminate|lia]. }
  destruct (sound_der _ _ _ _ g station_sound H M) as [A B].
  assert (b = enc_station real_value location g) as -> by congruence. split; [exact B|].
  now apply station_sound.
Qed.
End Station.

Section Spacecraft.
Context {orb mas srp_t drag_t dir stm_t : Type}.
Context (orbit_c : codec orb) (mass_c : codec mas) (srp_c : codec srp_t) (drag_c : codec drag_t).
Context (orb_ok : orb -> Prop) (mas_ok : mas -> Prop) (srp_ok : srp_t -> Prop) (drag_ok : drag_t -> Prop).
Hypothesis orbit_sound : sound orb_ok (c_len orbit_c) (c_enc orbit_c) (c_dec orbit_c).
Hypothesis mass_sound : sound mas_ok (c_len mass_c) (c_enc mass_c) (c_dec mass_c).
Hypothesis srp_sound : sound srp_ok (c_len srp_c) (c_enc srp_c) (c_dec srp_c).
Hypothesis drag_sound : sound drag_ok (c_len drag_c) (c_enc drag_c) (c_dec drag_c).
Notation craft := (@der_spacecraft F orb mas srp_t drag_t dir stm_t).
Notation len_craft := (len_spacecraft real_value orbit_c mass_c srp_c drag_c).
Notation enc_craft := (enc_spacecraft real_value orbit_c mass_c srp_c drag_c).
Notation dec_craft := (dec_spacecraft of_real_value orbit_c mass_c srp_c drag_c).

Definition craft_ok (v : craft) : Prop :=
  orb_ok (v_orbit v) /\ mas_ok (v_mass v) /\ srp_ok (v_srp v) /\ drag_ok (v_drag v) /\
  match v_thruster v with Some t => thruster_ok t | None => True end.
(** Without what is not encoded. *)
Definition bare (v : craft) : craft :=
  {| v_orbit := v_orbit v; v_mass := v_mass v; v_srp := v_srp v; v_drag := v_drag v;
     v_thruster := v_thruster v; v_mode := v_mode v; v_direction := None; v_stm := None |}.

(** ** Spacecraft: everything but the direction of the thrust and the STM comes back. *)
Theorem C25_spacecraft_round_trip_partial : forall v b, craft_ok v -> to_der len_craft enc_craft v = Ok b ->
  from_der dec_craft b = Ok (bare v) /\ forall rest, dec_craft (b ++ rest) = Ok (bare v, rest).
Proof.
  intros v b (H1 & H2 & H3 & H4 & H5) E.
  assert (b = enc_craft v /\ len_craft v <= MAX_LEN) as [-> M].
  { unfold to_der in E. destruct (Z.ltb_spec MAX_LEN (len_craft v)); [discriminate|].
    destruct (len_craft v =? size (enc_craft v)); [|discriminate]. split; [congruence|lia]. }
  assert (D : forall rest, dec_craft (enc_craft v ++ rest) = Ok (bare v, rest)).
  { intros rest. unfold len_spacecraft in M.
    pose proof (len_nonneg _ _ _ _ _ orbit_sound H1). pose proof (len_nonneg _ _ _ _ _ mass_sound H2).
    pose proof (len_nonneg _ _ _ _ _ srp_sound H3). pose proof (len_nonneg _ _ _ _ _ drag_sound H4).
    pose proof (len_enum_pos (mode_code (v_mode v))). unfold len_mode in M.
    pose proof (len_bool_pos (match v_thruster v with Some _ => true | None => false end)).
    assert (0 <= len_opt (len_thruster real_value) (v_thruster v)).
    { destruct (v_thruster v); cbn [len_opt]; [|lia]. now apply thruster_small. }
    unfold dec_spacecraft, enc_spacecraft. rewrite <- !app_assoc.
    rewrite (proj2 (orbit_sound _ H1)) by lia. cbn [bind fst snd].
    rewrite (proj2 (mass_sound _ H2)) by lia. cbn [bind fst snd].
    rewrite (proj2 (srp_sound _ H3)) by lia. cbn [bind fst snd].
    rewrite (proj2 (drag_sound _ H4)) by lia. cbn [bind fst snd].
    rewrite dec_mode_ok. cbn [bind fst snd].
    unfold bare. destruct (v_thruster v) as [t|].
    - rewrite <- app_assoc, dec_bool_ok. cbn [bind fst snd].
      rewrite (proj2 (thruster_sound t H5)) by (pose proof (thruster_small t H5); unfold MAX_LEN; lia).
      reflexivity.
    - rewrite dec_bool_ok. reflexivity. }
  split; [|exact D]. unfold from_der. specialize (D []). rewrite app_nil_r in D. now rewrite D.
Qed.
End Spacecraft.
End Reals.
Print Assumptions C25_scheduler_round_trip.
Print Assumptions C25_strand_round_trip.
Print Assumptions C25_trkconfig_round_trip.
Print Assumptions C25_trkconfig_encodes.
Print Assumptions C25_codes_round_trip.
Print Assumptions C25_thruster_round_trip.
Print Assumptions C25_noise_round_trip_partial.
Print Assumptions C25_sampled_noise_refuted.
Print Assumptions C25_station_round_trip_partial.
Print Assumptions C25_spacecraft_round_trip_partial.

(** * The conditions are met *)
(** Time scales in the order of hifitime. *)
Inductive scale9 := TAI | TT | ET | TDB | UTC | GPST | GST | BDT | QZSST.
Definition code9 (s : scale9) : Z :=
  match s with TAI => 0 | TT => 1 | ET => 2 | TDB => 3 | UTC => 4 | GPST => 5 | GST => 6 | BDT => 7 | QZSST => 8 end.
Definition of_code9 (z : Z) : scale9 :=
  if z =? 1 then TT else if z =? 2 then ET else if z =? 3 then TDB else if z =? 4 then UTC
  else if z =? 5 then GPST else if z =? 6 then GST else if z =? 7 then BDT else if z =? 8 then QZSST else TAI.
Example C25_scales : scales code9 of_code9.
Proof. split; intros []; cbn; (reflexivity || lia). Qed.

Definition some_config : @der_trkconfig scale9 :=
  {| t_scheduler := Some {| handoff := Greedy; cadence := Intermittent 3600000000000 (-7); min_samples := 200;
                            sample_alignment := Some 10000000000 |};
     t_sampling := 60000000000;
     t_strands := Some [{| d_start := -1; d_start_scale := UTC; d_end := 757382400000000000; d_end_scale := TAI |}] |}.
Example C25_config_example : trkconfig_ok some_config /\
  to_der len_trkconfig (enc_trkconfig code9) some_config =
    Ok [1; 1; 255; 10; 1; 1; 2; 1; 1; 2; 6; 3; 70; 48; 184; 160; 0; 2; 1; 249; 2; 2; 0; 200; 1; 1; 255;
        2; 5; 2; 84; 11; 228; 0; 2; 5; 13; 248; 71; 88; 0; 1; 1; 255; 48; 19; 2; 1; 255; 2; 1; 4;
        2; 8; 10; 130; 195; 71; 175; 34; 0; 0; 2; 1; 0].
Proof. split; [|vm_compute; reflexivity]. repeat constructor; cbv; discriminate. Qed.

(** Integers stand for the doubles and for the location. *)
Definition z_ok (z : Z) : Prop := - 2 ^ 127 <= z <= 2 ^ 127 - 1.
Definition z_of_value (v : bytes) : option Z :=
  match int_of_value (- 2 ^ 127) (2 ^ 127 - 1) v with Ok z => Some z | _ => None end.
Example C25_reals : reals int_value z_of_value z_ok.
Proof.
  intros x H. unfold z_of_value. rewrite int_of_value_ok by (split; exact H). split; [reflexivity|].
  rewrite int_value_size. destruct (int_octets_ok x H) as [_ B]. lia.
Qed.
Definition z_location : codec Z := {| c_len := len_int; c_enc := enc_int; c_dec := dec_i128 |}.
Example C25_location : sound z_ok (c_len z_location) (c_enc z_location) (c_dec z_location).
Proof.
  intros z H. destruct (int_sound (- 2 ^ 127) (2 ^ 127 - 1) z (conj H H)) as [A B]. split; [exact A|exact B].
Qed.
Definition some_station : @der_station Z Z :=
  {| gs_name := [68; 83; 83]; gs_location := 65; gs_types := [Range; Doppler]; gs_integration := Some 60000000000;
     gs_light_time := false; gs_timestamp_noise := None;
     gs_noises := Some [(Range, {| n_white := Some {| w_mean := 0; w_sigma := 5 |}; n_bias := None |});
                        (Doppler, {| n_white := None;
                                     n_bias := Some {| g_tau := 86400000000000; g_noise := 3; g_constant := Some 1;
                                                       g_prev := None; g_init := None |} |})] |}.
Example C25_station_example : station_ok z_ok (fun b => forallb (fun x => x <? 128) b) z_ok some_station /\
  to_der (len_station int_value z_location) (enc_station int_value z_location) some_station =
  Ok [12; 3; 68; 83; 83; 2; 1; 65; 48; 6; 10; 1; 0; 10; 1; 1; 1; 1; 0; 2; 1; 5; 2; 5; 13; 248; 71; 88; 0;
      48; 41; 48; 14; 10; 1; 0; 2; 1; 1; 48; 6; 9; 1; 0; 9; 1; 5; 48; 23; 10; 1; 1; 2; 1; 2; 2; 6; 78; 148;
      145; 79; 0; 0; 9; 1; 3; 1; 1; 255; 9; 1; 1].
Proof.
  split; [|vm_compute; reflexivity].
  split; [reflexivity|]. split; [cbv; split; discriminate|]. split.
  { repeat constructor; cbn; intuition discriminate. }
  split; [cbv; split; discriminate|]. split; [exact I|]. split.
  { repeat constructor; cbn; intuition discriminate. }
  repeat constructor; cbv; discriminate.
Qed.
