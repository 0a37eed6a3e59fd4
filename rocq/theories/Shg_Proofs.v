(** Loading the coefficients of gravity fields: text, loops and sums. *)
From Coq Require Import Reals String Ascii List Sorting Lia Lra Arith Bool.
From Verif Require Import Base Tdm_Model Tdm_Text Vec3 Sc_Model Orb_Spec Grav_Model Grav_Spec Grav_Props Shg_Model Shg_Spec.
Import ListNotations.
Local Open Scope string_scope.

(** * Text *)
Definition ws (a : ascii) : Prop := is_ws a = true.
Definition ws_comma (a : ascii) : Prop := is_ws a = true \/ a = ","%char.

Lemma split_words_at w c t : w <> "" -> (forall a, ws a -> without a w) -> ws c ->
  split_whitespace (w ++ String c t) = w :: split_whitespace t.
Proof.
  intros N W H. unfold split_whitespace. rewrite split_ws_at by assumption. cbn [filter].
  destruct (String.eqb_spec w ""); [contradiction|reflexivity].
Qed.
Lemma split_words_whole w : w <> "" -> (forall a, ws a -> without a w) -> split_whitespace w = [w].
Proof.
  intros N W. unfold split_whitespace. rewrite split_ws_whole by exact W. cbn [filter].
  destruct (String.eqb_spec w ""); [contradiction|reflexivity].
Qed.

Lemma separated_ws s l : separated ws s l -> split_whitespace s = l.
Proof.
  induction 1 as [|a s l A H IH|w s l N W E H IH].
  - reflexivity.
  - now rewrite split_whitespace_blank.
  - destruct E as [-> | (a & s' & -> & A)].
    + rewrite app_nil_str. rewrite split_words_whole by assumption.
      now rewrite <- IH.
    + rewrite split_words_at by assumption. rewrite split_whitespace_blank in IH by exact A. now rewrite IH.
Qed.

Lemma replace_app a b s t : replace_char a b (s ++ t) = replace_char a b s ++ replace_char a b t.
Proof. induction s as [|c s IH]; [reflexivity|]. cbn [append replace_char]. now rewrite IH. Qed.
Lemma replace_without a b s : without a s -> replace_char a b s = s.
Proof.
  induction s as [|c s IH]; [reflexivity|]. intros H. apply without_cons in H as [N H]. cbn [replace_char].
  rewrite IH by exact H. destruct (Ascii.eqb_spec c a); [contradiction|reflexivity].
Qed.
Lemma sep_replaced a : ws_comma a -> ws (if Ascii.eqb a "," then " "%char else a).
Proof. intros [H | ->]; [|reflexivity]. destruct (Ascii.eqb a ","); [reflexivity|exact H]. Qed.

Lemma separated_comma s l : separated ws_comma s l -> split_whitespace (replace_char "," " " s) = l.
Proof.
  intros H. apply separated_ws. induction H as [|a s l A H IH|w s l N W E H IH].
  - constructor.
  - cbn [replace_char]. constructor; [now apply sep_replaced|exact IH].
  - rewrite replace_app. rewrite replace_without by (apply W; now right).
    constructor; [exact N|intros a A; apply W; now left| |exact IH].
    destruct E as [-> | (a & s' & -> & A)]; [now left|]. right. cbn [replace_char].
    do 2 eexists. split; [reflexivity|]. now apply sep_replaced.
Qed.

(** * The loops *)
Definition somes {A} (l : list (option A)) : list A :=
  flat_map (fun o => match o with Some a => [a] | None => [] end) l.
Definition as_read (o : option coefficient) : nat * nat * R * R :=
  match o with Some a => (deg a, ord a, C_nm a, S_nm a) | None => (0%nat, 0%nat, 0%R, 0%R) end.
Definition has_key (n m : nat) (a : coefficient) : bool := ((deg a =? n) && (ord a =? m))%nat.

Lemma has_key_true n m a : has_key n m a = true <-> (deg a, ord a) = (n, m).
Proof.
  unfold has_key. rewrite andb_true_iff, !Nat.eqb_eq. split; [intros [-> ->]; reflexivity|].
  intros E. injection E as -> ->. now split.
Qed.

Lemma wanted_none D O l : Forall (fun a => (D < deg a)%nat) l -> wanted D O l = [].
Proof.
  induction 1 as [|a l H1 H2 IH]; [reflexivity|]. cbn [wanted filter]. fold (wanted D O l). rewrite IH.
  replace (deg a <=? D)%nat with false by (symmetry; apply Nat.leb_gt; lia).
  now rewrite andb_false_r.
Qed.

Lemma find_not_in n m l : ~ In (n, m) (map (fun a => (deg a, ord a)) l) ->
  forall D O, find (has_key n m) (wanted D O l) = None.
Proof.
  intros H D O. destruct (find (has_key n m) (wanted D O l)) as [a|] eqn:F; [|reflexivity].
  apply find_some in F as [F1 F2]. apply filter_In in F1 as [F1 _]. apply has_key_true in F2.
  exfalso. apply H. rewrite <- F2. now apply (in_map (fun a => (deg a, ord a))).
Qed.

Lemma load_spec read D O : forall ls es d,
  Forall2 (fun l e => read l = Ok (as_read e)) ls es -> well_formed (somes es) ->
  size d = S D -> (degree d <= D)%nat ->
  exists d', load_lines read D O ls d = Ok d' /\ size d' = S D /\ (degree d <= degree d' <= D)%nat /\
    (order d <= order d')%nat /\
    (forall a, In a (somes es) -> (deg a <= D)%nat -> (deg a <= degree d' /\ ord a <= order d')%nat) /\
    (degree d' = degree d \/ exists a, In a (somes es) /\ deg a = degree d') /\
    (order d' = order d \/ exists a, In a (somes es) /\ (deg a <= D)%nat /\ ord a = order d') /\
    forall n m, (1 <= n)%nat -> (c_nm d' n m, s_nm d' n m) =
      match find (has_key n m) (wanted D O (somes es)) with
      | Some a => (C_nm a, S_nm a)
      | None => (c_nm d n m, s_nm d n m)
      end.
Proof.
  induction ls as [|l ls IH]; intros es d F WF Hs Hd.
  - inversion F; subst. cbn [load_lines]. exists d. cbn [somes flat_map].
    refine (conj eq_refl (conj Hs (conj _ (conj _ (conj _ (conj _ (conj _ _))))))); [lia|lia| | | |].
    + intros a [].
    + now left.
    + now left.
    + intros; reflexivity.
  - inversion F as [|? e ? es' Hl F']; subst. cbn [load_lines]. rewrite Hl. cbn [bind].
    destruct e as [a|]; cbn [as_read].
    + change (somes (Some a :: es')) with (a :: somes es') in *. destruct WF as (W1 & W2 & W3).
      inversion W1 as [|? ? W1' W1h]; subst. cbn [map] in W2. inversion W2 as [|? ? W2h W2']; subst.
      inversion W3 as [|? ? W3h W3']; subst.
      destruct (Nat.ltb_spec D (deg a)) as [Hgt|Hle].
      * exists d. refine (conj eq_refl (conj Hs (conj _ (conj _ (conj _ (conj _ (conj _ _))))))); [lia|lia| | | |].
        -- intros b [<- | Hb] Hb'; [lia|]. rewrite Forall_forall in W1h. specialize (W1h b Hb). lia.
        -- now left.
        -- now left.
        -- intros n m Hn. rewrite wanted_none; [reflexivity|]. constructor; [exact Hgt|].
           eapply Forall_impl; [|exact W1h]. cbn. intros b Hb. lia.
      * assert (I : exists d1, insert O (deg a, ord a, C_nm a, S_nm a) d = Ok d1 /\ size d1 = S D /\
                 degree d1 = Nat.max (degree d) (deg a) /\ order d1 = Nat.max (order d) (ord a) /\
                 forall n m, (c_nm d1 n m, s_nm d1 n m) =
                   if (ord a <=? O)%nat && has_key n m a then (C_nm a, S_nm a) else (c_nm d n m, s_nm d n m)).
        { unfold insert. destruct (Nat.leb_spec (ord a) O) as [Ho|Ho]; cbn [andb].
          - replace ((deg a <? size d) && (ord a <? size d))%nat with true
              by (symmetry; rewrite andb_true_iff, !Nat.ltb_lt; lia).
            cbn [bind fst snd]. eexists. split; [reflexivity|]. cbn [size degree order c_nm s_nm].
            refine (conj Hs (conj eq_refl (conj eq_refl _))). intros n m. unfold upd, has_key.
            rewrite (Nat.eqb_sym (deg a) n), (Nat.eqb_sym (ord a) m).
            destruct ((n =? deg a) && (m =? ord a))%nat; reflexivity.
          - cbn [bind fst snd]. eexists. split; [reflexivity|]. cbn [size degree order c_nm s_nm].
            refine (conj Hs (conj eq_refl (conj eq_refl _))). reflexivity. }
        destruct I as (d1 & -> & I1 & I2 & I3 & I4). cbn [bind].
        destruct (IH es' d1 F') as (d' & L & S1 & S2 & S3 & S4 & S5 & S6 & S7); try assumption; try lia.
        { now refine (conj W1' (conj W2' W3')). }
        exists d'. refine (conj L (conj S1 (conj _ (conj _ (conj _ (conj _ (conj _ _))))))); [lia|lia| | | |].
        -- intros b [<- | Hb] Hb'; [lia|now apply S4].
        -- destruct S5 as [S5 | (b & B1 & B2)].
           ++ rewrite I2 in S5. destruct (Nat.max_spec (degree d) (deg a)) as [[? E]|[? E]]; rewrite E in S5.
              ** right. exists a. split; [now left|congruence].
              ** now left.
           ++ right. exists b. split; [now right|exact B2].
        -- destruct S6 as [S6 | (b & B1 & B2)].
           ++ rewrite I3 in S6. destruct (Nat.max_spec (order d) (ord a)) as [[? E]|[? E]]; rewrite E in S6.
              ** right. exists a. split; [now left|]. split; [exact Hle|congruence].
              ** now left.
           ++ right. exists b. split; [now right|exact B2].
        -- intros n m Hn. rewrite (S7 n m Hn). cbn [wanted filter]. fold (wanted D O (somes es')).
           replace (deg a <=? D)%nat with true by (symmetry; now apply Nat.leb_le). rewrite andb_true_r.
           destruct (has_key n m a) eqn:K.
           ++ pose proof K as K'. apply has_key_true in K'. rewrite (find_not_in n m) by (rewrite <- K'; exact W2h).
              rewrite (I4 n m), K, andb_true_r. rewrite K' in W2h. injection K' as -> ->.
              replace (1 <=? n)%nat with true by (symmetry; now apply Nat.leb_le). cbn [andb].
              destruct (m <=? O)%nat; [cbn [find]; now rewrite K|].
              rewrite (find_not_in n m); [reflexivity|exact W2h].
           ++ replace (find (has_key n m) (if (1 <=? deg a)%nat && (ord a <=? O)%nat then a :: wanted D O (somes es') else wanted D O (somes es')))
                with (find (has_key n m) (wanted D O (somes es'))).
              2:{ destruct ((1 <=? deg a)%nat && (ord a <=? O)%nat); [cbn [find]; now rewrite K|reflexivity]. }
              rewrite (I4 n m), K, andb_false_r. reflexivity.
    + change (somes (None :: es')) with (somes es') in *.
      replace (D <? 0)%nat with false by (symmetry; apply Nat.ltb_ge; lia).
      assert (I : exists d1, insert O (0%nat, 0%nat, 0%R, 0%R) d = Ok d1 /\ size d1 = S D /\
                 degree d1 = degree d /\ order d1 = order d /\
                 forall n m, (1 <= n)%nat -> (c_nm d1 n m, s_nm d1 n m) = (c_nm d n m, s_nm d n m)).
      { unfold insert. replace (0 <=? O)%nat with true by reflexivity.
        replace ((0 <? size d) && (0 <? size d))%nat with true by (symmetry; rewrite andb_true_iff, !Nat.ltb_lt; lia).
        cbn [bind fst snd]. eexists. split; [reflexivity|]. cbn [size degree order c_nm s_nm].
        refine (conj Hs (conj (Nat.max_0_r _) (conj (Nat.max_0_r _) _))). intros n m Hn. unfold upd.
        replace (n =? 0)%nat with false by (symmetry; apply Nat.eqb_neq; lia). reflexivity. }
      destruct I as (d1 & -> & I1 & I2 & I3 & I4). cbn [bind].
      destruct (IH es' d1 F') as (d' & L & S1 & S2 & S3 & S4 & S5 & S6 & S7); try assumption; try lia.
      rewrite I2 in *. rewrite I3 in *.
      exists d'. refine (conj L (conj S1 (conj S2 (conj S3 (conj S4 (conj S5 (conj S6 _))))))).
      intros n m Hn. rewrite (S7 n m Hn), (I4 n m Hn). reflexivity.
Qed.

(** * The sums *)
Local Open Scope R_scope.
Lemma rsum_app l k : rsum (l ++ k) = rsum l + rsum k.
Proof. induction l as [|x l IH]; cbn [List.app rsum]; [ring|]. rewrite IH. ring. Qed.
Lemma rsum_zero {A} (f : A -> R) l : (forall x, In x l -> f x = 0) -> rsum (map f l) = 0.
Proof.
  induction l as [|x l IH]; intros H; cbn [map rsum]; [reflexivity|].
  rewrite IH, H; [ring|now left|]. intros y Hy. apply H. now right.
Qed.
Lemma rsum_plus {A} (f g : A -> R) l : rsum (map (fun x => f x + g x) l) = rsum (map f l) + rsum (map g l).
Proof. induction l as [|x l IH]; cbn [map rsum]; [ring|]. rewrite IH. ring. Qed.
Lemma rsum_swap {A B} (f : A -> B -> R) l k :
  rsum (map (fun x => rsum (map (f x) k)) l) = rsum (map (fun y => rsum (map (fun x => f x y) l)) k).
Proof.
  induction l as [|x l IH]; cbn [map rsum].
  - symmetry. now apply rsum_zero.
  - rewrite IH. rewrite <- rsum_plus. reflexivity.
Qed.

(** a sum with only one term that counts *)
Lemma rsum_one (f : nat -> R) i : forall len k, (k <= i < k + len)%nat ->
  (forall x, x <> i -> f x = 0) -> rsum (map f (seq k len)) = f i.
Proof.
  induction len as [|len IH]; intros k Hk Hf; [lia|]. cbn [seq map rsum].
  destruct (Nat.eq_dec k i) as [->|N].
  - rewrite rsum_zero; [ring|]. intros x Hx. apply in_seq in Hx. apply Hf. lia.
  - rewrite (Hf k N), IH by (lia || assumption). ring.
Qed.

Lemma find_sum (g : coefficient -> R) n m l : NoDup (map (fun a => (deg a, ord a)) l) ->
  match find (has_key n m) l with Some a => g a | None => 0 end
  = rsum (map (fun a => if has_key n m a then g a else 0) l).
Proof.
  induction l as [|a l IH]; intros N; cbn [map find rsum] in *; [reflexivity|].
  inversion N as [|? ? N1 N2]; subst. destruct (has_key n m a) eqn:K.
  - rewrite rsum_zero; [ring|]. intros b Hb. destruct (has_key n m b) eqn:K'; [|reflexivity].
    apply has_key_true in K, K'. exfalso. apply N1. rewrite K, <- K'. now apply (in_map (fun a => (deg a, ord a))).
  - rewrite IH by exact N2. ring.
Qed.

Lemma NoDup_wanted D O l : NoDup (map (fun a => (deg a, ord a)) l) ->
  NoDup (map (fun a => (deg a, ord a)) (wanted D O l)).
Proof.
  unfold wanted. induction l as [|a l IH]; intros N; cbn [filter map] in *; [constructor|].
  inversion N as [|? ? N1 N2]; subst. destruct (_ && _)%bool; [|now apply IH]. cbn [map].
  constructor; [|now apply IH]. intros H. apply N1. apply in_map_iff in H as (b & E & B).
  apply filter_In in B as [B _]. rewrite <- E. now apply (in_map (fun a => (deg a, ord a))).
Qed.

Lemma harmonic_0 er mu n m p : harmonic 0 0 er mu n m p = 0.
Proof. unfold harmonic. destruct (cpow _ _ _). ring. Qed.

Lemma potential_of_file D O l d er mu p : well_formed l ->
  (forall a, In a l -> (deg a <= D)%nat -> (deg a <= degree d /\ ord a <= order d)%nat) ->
  (forall n m, (1 <= n)%nat -> (c_nm d n m, s_nm d n m) =
     match find (has_key n m) (wanted D O l) with Some a => (C_nm a, S_nm a) | None => (0, 0) end) ->
  potential d er mu p =
  rsum (map (fun a => harmonic (C_nm a) (S_nm a) er mu (deg a) (ord a) p) (wanted D O l)).
Proof.
  intros (W1 & W2 & W3) B V. unfold potential.
  set (h := fun a => harmonic (C_nm a) (S_nm a) er mu (deg a) (ord a) p).
  transitivity (rsum (map (fun n => rsum (map (fun m =>
     rsum (map (fun a => if has_key n m a then h a else 0) (wanted D O l))) (seq 0 (S (Nat.min n (order d))))))
     (seq 1 (degree d)))).
  - apply rsum_ext. intros n Hn. apply in_seq in Hn. apply rsum_ext. intros m _.
    rewrite <- (find_sum h) by now apply NoDup_wanted.
    specialize (V n m ltac:(lia)). destruct (find (has_key n m) (wanted D O l)) as [a|] eqn:F.
    + apply find_some in F as [_ F]. apply has_key_true in F. injection F as F1 F2. injection V as -> ->.
      unfold h. now rewrite F1, F2.
    + injection V as -> ->. apply harmonic_0.
  - transitivity (rsum (map (fun n => rsum (map (fun a =>
        rsum (map (fun m => if has_key n m a then h a else 0) (seq 0 (S (Nat.min n (order d)))))) (wanted D O l)))
        (seq 1 (degree d)))).
    { apply rsum_ext. intros n _. apply (rsum_swap (fun m a => if has_key n m a then h a else 0)). }
    rewrite (rsum_swap (fun n a => rsum (map (fun m => if has_key n m a then h a else 0) (seq 0 (S (Nat.min n (order d))))))).
    apply rsum_ext. intros a Ha. apply filter_In in Ha as [Ha Hw].
    rewrite !andb_true_iff, !Nat.leb_le in Hw. destruct Hw as [[H1 H2] H3].
    destruct (B a Ha H2) as [B1 B2]. rewrite Forall_forall in W3. specialize (W3 a Ha).
    rewrite (rsum_one _ (deg a)).
    + rewrite (rsum_one _ (ord a)).
      * unfold has_key. now rewrite !Nat.eqb_refl.
      * lia.
      * intros m Hm. unfold has_key. replace (ord a =? m)%nat with false by (symmetry; apply Nat.eqb_neq; lia).
        now rewrite andb_false_r.
    + lia.
    + intros n Hn. apply rsum_zero. intros m _. unfold has_key.
      replace (deg a =? n)%nat with false by (symmetry; apply Nat.eqb_neq; lia). reflexivity.
Qed.
