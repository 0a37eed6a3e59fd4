(** Theorems about the files of gravity fields. *)
From Coq Require Import Reals String Ascii List Sorting Lia Lra Arith Bool.
From Coquelicot Require Import Coquelicot.
From Verif Require Import Base Tdm_Model Tdm_Text Vec3 Sc_Model Orb_Spec Grav_Legendre Grav_Model Grav_Spec Grav_Props
  Shg_Model Shg_Spec Shg_Proofs.
Import ListNotations.
Local Open Scope string_scope.

Section Files.
Context (parse_usize : string -> option nat) (parse_f64 : string -> option R).

(** A line of a SHADR file: degree, order, C_nm and S_nm (with D or E before the exponent),
    then anything. *)
Definition shadr_entry (l : string) (a : coefficient) : Prop :=
  exists sn sm sc ss rest, separated ws_comma l (sn :: sm :: sc :: ss :: rest) /\
    parse_usize sn = Some (deg a) /\ parse_usize sm = Some (ord a) /\
    parse_f64 (replace_char "D" "E" sc) = Some (C_nm a) /\ parse_f64 (replace_char "D" "E" ss) = Some (S_nm a).

(** What follows degree and order on a line of a COF file. *)
Inductive cof_values : list string -> R -> R -> Prop :=
| cof_zonal : forall sc c, signs sc -> parse_f64 sc = Some c -> cof_values [sc] c 0
| cof_apart : forall sc ss c s rest, signs sc -> parse_f64 sc = Some c -> parse_f64 ss = Some s ->
    cof_values (sc :: ss :: rest) c s
| cof_joined : forall sc ss c s, small sc -> small_minus ss -> parse_f64 sc = Some c -> parse_f64 ss = Some s ->
    cof_values [sc ++ ss] c s.
Definition cof_entry (l : string) (a : coefficient) : Prop :=
  starts_with "R" l = true /\
  exists name sn sm vs, separated ws l (name :: sn :: sm :: vs) /\
    parse_usize sn = Some (deg a) /\ parse_usize sm = Some (ord a) /\ cof_values vs (C_nm a) (S_nm a).

Lemma read_shadr_entry l a : shadr_entry l a -> read_shadr parse_usize parse_f64 l = Ok (as_read (Some a)).
Proof.
  intros (sn & sm & sc & ss & rest & H & E1 & E2 & E3 & E4). unfold read_shadr.
  rewrite (separated_comma _ _ H). unfold item, get. cbn [nth_error].
  rewrite E1. cbn [bind]. rewrite E2. cbn [bind]. rewrite E3. cbn [bind]. rewrite E4. reflexivity.
Qed.

Lemma read_shadr_blank l : separated ws_comma l [] -> read_shadr parse_usize parse_f64 l = Ok (as_read None).
Proof. intros H. unfold read_shadr. rewrite (separated_comma _ _ H). reflexivity. Qed.

(** ** The minus signs of a COF file *)
Lemma count_app c s t : count_char c (s ++ t) = (count_char c s + count_char c t)%nat.
Proof. induction s as [|a s IH]; [reflexivity|]. cbn [append count_char]. rewrite IH. lia. Qed.
Lemma count_without c s : without c s -> count_char c s = 0%nat.
Proof.
  induction s as [|a s IH]; [reflexivity|]. intros H. apply without_cons in H as [N H]. cbn [count_char].
  rewrite IH by exact H. destruct (Ascii.eqb_spec a c); [contradiction|reflexivity].
Qed.
Lemma count_signs s : signs s -> (count_char DASH s <= 2)%nat.
Proof.
  intros [a A|a b A B|a A|a b A B]; rewrite ?count_app, ?(count_without DASH a A), ?(count_without DASH b B);
    cbn; lia.
Qed.
Lemma starts_without c s t : without c s -> s <> "" -> starts_with c (s ++ t) = false.
Proof.
  destruct s as [|a s]; [contradiction|]. intros H _. apply without_cons in H as [N _]. cbn [append starts_with].
  destruct (Ascii.eqb_spec a c); [contradiction|reflexivity].
Qed.

Lemma read_pair_signs s c : signs s -> parse_f64 s = Some c -> read_pair parse_f64 s = Ok (c, 0%R).
Proof.
  intros H E. pose proof (count_signs s H) as K. unfold read_pair.
  replace (count_char DASH s =? 3)%nat with false by (symmetry; apply Nat.eqb_neq; lia).
  replace (count_char DASH s =? 4)%nat with false by (symmetry; apply Nat.eqb_neq; lia).
  cbn [andb orb]. unfold get. rewrite E. reflexivity.
Qed.

Lemma split_dash a t : dash_free a -> split DASH (a ++ "-" ++ t) = a :: split DASH t.
Proof. intros H. exact (split_at DASH a t H). Qed.

Lemma read_pair_joined sc ss c s : small sc -> small_minus ss ->
  parse_f64 sc = Some c -> parse_f64 ss = Some s -> read_pair parse_f64 (sc ++ ss) = Ok (c, s).
Proof.
  intros H (x & y & X & Y & ->) E1 E2. unfold read_pair, get. destruct H as [a b N A B|a b A B].
  - replace ((a ++ "-" ++ b) ++ "-" ++ x ++ "-" ++ y) with (a ++ "-" ++ b ++ "-" ++ x ++ "-" ++ y)
      by (rewrite !app_assoc_str; reflexivity).
    assert (K : count_char DASH (a ++ "-" ++ b ++ "-" ++ x ++ "-" ++ y) = 3%nat).
    { rewrite !count_app, (count_without DASH a A), (count_without DASH b B), (count_without DASH x X), (count_without DASH y Y). reflexivity. }
    rewrite K. rewrite (starts_without DASH a _ A N). cbn [Nat.eqb negb andb orb].
    rewrite !split_dash by assumption. rewrite (split_whole DASH y Y). cbn [length Nat.eqb nth].
    rewrite E1. cbn [bind]. rewrite E2. reflexivity.
  - replace (("-" ++ a ++ "-" ++ b) ++ "-" ++ x ++ "-" ++ y) with ("" ++ "-" ++ a ++ "-" ++ b ++ "-" ++ x ++ "-" ++ y)
      by (rewrite !app_assoc_str; reflexivity).
    assert (K : count_char DASH ("" ++ "-" ++ a ++ "-" ++ b ++ "-" ++ x ++ "-" ++ y) = 4%nat).
    { rewrite !count_app, (count_without DASH a A), (count_without DASH b B), (count_without DASH x X), (count_without DASH y Y). reflexivity. }
    rewrite K. rewrite !(orb_true_r), ?andb_false_l. cbn [Nat.eqb andb orb].
    rewrite (split_dash "") by apply without_empty. rewrite !split_dash by assumption.
    rewrite (split_whole DASH y Y). cbn [length Nat.eqb nth].
    rewrite E1. cbn [bind]. rewrite E2. reflexivity.
Qed.

Lemma read_cof_entry D l a : (1 <= D)%nat -> cof_entry l a ->
  read_cof parse_usize parse_f64 D l = Ok (as_read (Some a)).
Proof.
  destruct a as [n m c0 s0]. intros HD (_ & name & sn & sm & vs & H & E1 & E2 & V). unfold read_cof.
  cbn [deg ord C_nm S_nm as_read] in *.
  rewrite (separated_ws _ _ H). unfold item. cbn [nth_error]. unfold get at 1. rewrite E1. cbn [bind].
  unfold get at 1. rewrite E2. cbn [bind].
  replace (D =? 0)%nat with false by (symmetry; apply Nat.eqb_neq; lia).
  destruct V as [sc c S1 P1|sc ss c s rest S1 P1 P2|sc ss c s S1 S2 P1 P2]; cbn [nth_error].
  - rewrite (read_pair_signs _ _ S1 P1). reflexivity.
  - rewrite (read_pair_signs _ _ S1 P1). cbn [bind fst snd]. unfold get. rewrite P2. reflexivity.
  - rewrite (read_pair_joined _ _ _ _ S1 S2 P1 P2). reflexivity.
Qed.

(** ** The files *)
Lemma listing_app entry other ls cs ls' cs' : listing entry other ls cs -> listing entry other ls' cs' ->
  listing entry other (ls ++ ls')%list (cs ++ cs')%list.
Proof. induction 1; intros; cbn [List.app]; [assumption|constructor 2; auto|constructor 3; auto]. Qed.

Lemma shadr_lines ls cs : listing shadr_entry (fun l => separated ws_comma l []) ls cs ->
  exists es, Forall2 (fun l e => read_shadr parse_usize parse_f64 l = Ok (as_read e)) ls es /\ somes es = cs.
Proof.
  induction 1 as [|l ls cs O H (es & F & E)|l ls a cs O H (es & F & E)].
  - exists []. split; [constructor|reflexivity].
  - exists (None :: es). split; [constructor; [now apply read_shadr_blank|exact F]|exact E].
  - exists (Some a :: es). split; [constructor; [now apply read_shadr_entry|exact F]|]. cbn. now rewrite <- E.
Qed.

Lemma cof_lines D ls cs : (1 <= D)%nat -> listing cof_entry (fun l => starts_with "R" l = false) ls cs ->
  exists es, Forall2 (fun l e => read_cof parse_usize parse_f64 D l = Ok (as_read e)) (filter (starts_with "R") ls) es
    /\ somes es = cs.
Proof.
  intros HD. induction 1 as [|l ls cs O H (es & F & E)|l ls a cs O H (es & F & E)]; cbn [filter].
  - exists []. split; [constructor|reflexivity].
  - rewrite O. exists es. now split.
  - rewrite (proj1 O). exists (Some a :: es). split; [constructor; [now apply read_cof_entry|exact F]|].
    cbn. now rewrite <- E.
Qed.

(** What a field loaded with the degree [D] and the order [O] is to the file. *)
Definition loaded (D O : nat) (cs : list coefficient) (d : field_data) : Prop :=
  (degree d <= D)%nat /\ (degree d < size d)%nat /\
  (forall a, In a cs -> (deg a <= D)%nat -> (deg a <= degree d)%nat) /\
  (degree d = 0%nat \/ exists a, In a cs /\ deg a = degree d) /\
  (forall er mu p, potential d er mu p =
     rsum (map (fun a => harmonic (C_nm a) (S_nm a) er mu (deg a) (ord a) p) (wanted D O cs))).

Lemma loaded_of_lines read D O ls es : Forall2 (fun l e => read l = Ok (as_read e)) ls es ->
  well_formed (somes es) -> exists d, load_lines read D O ls (empty_field D) = Ok d /\ loaded D O (somes es) d.
Proof.
  intros F W. destruct (load_spec read D O ls es (empty_field D) F W eq_refl (Nat.le_0_l D))
    as (d & L & S1 & S2 & S3 & S4 & S5 & S6 & S7).
  exists d. split; [exact L|]. cbn [empty_field degree order c_nm s_nm] in *.
  refine (conj _ (conj _ (conj _ (conj S5 _)))); [lia|lia| |].
  - intros a Ha Hd. now apply S4.
  - intros er mu p. apply potential_of_file; [exact W|exact S4|exact S7].
Qed.

(** Loading a SHADR file: whatever the requested degree and order, the potential of the field
    is that of the coefficients of the file up to them. *)
Theorem C75_shadr : forall header lines cs D O,
  without LF header -> Forall (without LF) lines ->
  listing shadr_entry (fun l => separated ws_comma l []) lines cs -> well_formed cs ->
  exists d, from_shadr parse_usize parse_f64 (concat_all (map ln (header :: lines))) D O = Ok d /\ loaded D O cs d.
Proof.
  intros header lines cs D O Hh Hl L W. unfold from_shadr.
  rewrite split_lines by now constructor. cbn [tl List.app].
  destruct (shadr_lines (lines ++ [""])%list cs) as (es & F & E).
  { rewrite <- (app_nil_r cs). apply listing_app; [exact L|]. constructor 2; [constructor|constructor]. }
  rewrite <- E in W |- *. exact (loaded_of_lines _ D O _ es F W).
Qed.

(** Loading a COF file, the coefficients of which may be joined when S_nm is negative. *)
Theorem C75_cof : forall lines cs D O, (1 <= D)%nat -> Forall (without LF) lines ->
  listing cof_entry (fun l => starts_with "R" l = false) lines cs -> well_formed cs ->
  exists d, from_cof parse_usize parse_f64 (concat_all (map ln lines)) D O = Ok d /\ loaded D O cs d.
Proof.
  intros lines cs D O HD Hl L W. unfold from_cof. rewrite split_lines by assumption.
  destruct (cof_lines D (lines ++ [""])%list cs HD) as (es & F & E).
  { rewrite <- (app_nil_r cs). apply listing_app; [exact L|]. constructor 2; [reflexivity|constructor]. }
  rewrite <- E in W |- *. exact (loaded_of_lines _ D O _ es F W).
Qed.

(** Any file that loads, well formed or not, gives a field whose acceleration reads within
    its coefficients. *)
Lemma load_fits read D O : forall ls d d', load_lines read D O ls d = Ok d' -> (degree d <= D)%nat ->
  size d = S D -> (degree d' < size d')%nat.
Proof.
  induction ls as [|l ls IH]; intros d d' H Hd Hs; cbn [load_lines] in H.
  - injection H as <-. lia.
  - destruct (read l) as [[[[n m] c] s]|e| |]; try discriminate. cbn [bind] in H.
    destruct (Nat.ltb_spec D n); [injection H as <-; lia|].
    destruct (insert O (n, m, c, s) d) as [d1|e| |] eqn:I; try discriminate. cbn [bind] in H.
    apply (IH d1 d' H); unfold insert in I;
      (destruct (m <=? O)%nat; [destruct (_ && _)%bool; [|discriminate]|]; cbn [bind] in I; injection I as <-);
      cbn [degree size]; try lia; exact Hs.
Qed.

Theorem C75_fits : forall path gunzipped text D O d,
  from_config parse_usize parse_f64 path gunzipped text D O = Ok d -> (degree d < size d)%nat.
Proof.
  intros path g text D O d H. unfold from_config in H. destruct (_ || _)%bool.
  - apply (load_fits _ _ _ _ _ _ H); [apply Nat.le_0_l|reflexivity].
  - apply (load_fits _ _ _ _ _ _ H); [apply Nat.le_0_l|reflexivity].
Qed.

Theorem C75_acceleration : forall path gunzipped text D O d er mu p,
  from_config parse_usize parse_f64 path gunzipped text D O = Ok d -> er <> 0%R -> p <> vzero ->
  exists a, local_accel d er mu p = Ok a /\
    forall w, is_derive (fun h => potential d er mu (line p w h)) 0 (dot a w).
Proof.
  intros path g text D O d er mu p H He Hp. apply C74_gradient_of_potential; [|exact He|exact Hp].
  exact (C75_fits _ _ _ _ _ _ H).
Qed.

(** [from_config] never reads a file whose name is longer than its extension as a COF file. *)
Theorem C75_config_never_cof : forall dir name gunzipped text D O,
  name <> ".cof" -> name <> ".cof.gz" ->
  from_config parse_usize parse_f64 (dir ++ [name])%list gunzipped text D O
  = from_shadr parse_usize parse_f64 text D O.
Proof.
  intros dir name g text D O N1 N2. unfold from_config, ends_with. cbn [length].
  replace (length (dir ++ [name]) - 1)%nat with (length dir) by (rewrite app_length; cbn; lia).
  rewrite skipn_app, skipn_all, Nat.sub_diag. cbn [skipn List.app].
  destruct (list_eq_dec string_dec [name] [".cof"]) as [E|_]; [congruence|].
  destruct (list_eq_dec string_dec [name] [".cof.gz"]) as [E|_]; [congruence|].
  rewrite !andb_false_r. reflexivity.
Qed.
End Files.
