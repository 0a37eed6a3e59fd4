(** Facts on the string functions of the TDM reader and writer. *)
From Coq Require Import Reals String Ascii.
From Verif Require Import Base RustStd Arc_Model Tdm_Model.
Local Open Scope string_scope.

(** The character does not occur. *)
Fixpoint occurs (c : ascii) (s : string) : Prop :=
  match s with EmptyString => False | String a s' => a = c \/ occurs c s' end.
Definition without (c : ascii) (s : string) : Prop := ~ occurs c s.

(** A word: not empty, without white space and equal signs. *)
Definition word (s : string) : Prop :=
  s <> "" /\ without EQS s /\ forall c, is_ws c = true -> without c s.

Lemma app_nil_str s : s ++ "" = s.
Proof. induction s as [|a s IH]; cbn; [reflexivity|]. now rewrite IH. Qed.
Lemma app_assoc_str a b c : (a ++ b) ++ c = a ++ (b ++ c).
Proof. induction a as [|x a IH]; cbn; [reflexivity|]. now rewrite IH. Qed.
Lemma occurs_app c s t : occurs c (s ++ t) <-> occurs c s \/ occurs c t.
Proof. induction s as [|a s IH]; cbn; [tauto|]. rewrite IH. tauto. Qed.
Lemma without_app c s t : without c (s ++ t) <-> without c s /\ without c t.
Proof. unfold without. rewrite occurs_app. tauto. Qed.
Lemma without_cons c a s : without c (String a s) <-> a <> c /\ without c s.
Proof. unfold without. cbn. tauto. Qed.
Lemma without_empty c : without c "".
Proof. intros []. Qed.
Lemma without_blanks c n : c <> " "%char -> without c (blanks n).
Proof.
  intros H. induction n as [|n IH]; cbn [blanks]; [apply without_empty|].
  apply without_cons. split; [congruence|exact IH].
Qed.

(** * [split] *)
Lemma split_not_nil c s : split c s <> [].
Proof. destruct s as [|a s]; cbn; [discriminate|]. destruct (Ascii.eqb a c); [discriminate|].
  destruct (split c s); discriminate. Qed.
Lemma split_whole c s : without c s -> split c s = [s].
Proof.
  induction s as [|a s IH]; intros H; [reflexivity|]. apply without_cons in H. destruct H as [H1 H2].
  cbn [split]. destruct (Ascii.eqb_spec a c) as [E|E]; [contradiction|]. now rewrite (IH H2).
Qed.
Lemma split_at c s t : without c s -> split c (s ++ String c t) = s :: split c t.
Proof.
  induction s as [|a s IH]; intros H.
  - cbn [split append]. now rewrite Ascii.eqb_refl.
  - apply without_cons in H. destruct H as [H1 H2]. cbn [split append].
    destruct (Ascii.eqb_spec a c) as [E|E]; [contradiction|]. now rewrite (IH H2).
Qed.

(** * [trim] *)
Lemma trim_end_app s c t : is_ws c = false ->
  trim_end (s ++ String c t) = s ++ String c (trim_end t).
Proof.
  intros H. induction s as [|a s IH]; cbn [append trim_end].
  - rewrite H. destruct (trim_end t) as [|b r]; reflexivity.
  - rewrite IH. destruct s; reflexivity.
Qed.
Lemma trim_end_twice s : trim_end (trim_end s) = trim_end s.
Proof.
  induction s as [|a s IH]; [reflexivity|]. cbn [trim_end].
  destruct (trim_end s) as [|b r] eqn:E.
  - destruct (is_ws a) eqn:W; [reflexivity|]. cbn [trim_end]. now rewrite W.
  - change (trim_end (String a (String b r))) with
      (match trim_end (String b r) with
       | EmptyString => if is_ws a then "" else String a ""
       | r0 => String a r0 end). rewrite IH. reflexivity.
Qed.
Lemma trim_start_end s : trim_start (trim_end s) = trim_end (trim_start s).
Proof.
  induction s as [|a s IH]; [reflexivity|]. cbn [trim_end trim_start].
  destruct (is_ws a) eqn:W.
  - rewrite <- IH. destruct (trim_end s) as [|b r]; [reflexivity|]. cbn [trim_start]. now rewrite W.
  - cbn [trim_end]. destruct (trim_end s) as [|b r]; [rewrite W|]; cbn [trim_start]; now rewrite W.
Qed.
Lemma trim_trim_end s : trim (trim_end s) = trim s.
Proof. unfold trim. rewrite trim_start_end. apply trim_end_twice. Qed.
Lemma trim_ws c s : is_ws c = true -> trim (String c s) = trim s.
Proof. intros H. unfold trim. cbn [trim_start]. now rewrite H. Qed.
Lemma trim_app_ws s c : is_ws c = true -> trim (s ++ String c "") = trim s.
Proof.
  intros H. rewrite <- trim_trim_end. rewrite <- (trim_trim_end s). f_equal.
  induction s as [|a s IH]; cbn [append trim_end]; [now rewrite H|]. now rewrite IH.
Qed.
Lemma trim_tab s : trim (tab s) = trim s.
Proof. now apply trim_ws. Qed.
Lemma drop_cr_end s : trim_end (drop_cr s) = trim_end s.
Proof.
  induction s as [|a s IH]; [reflexivity|]. cbn [drop_cr]. destruct s as [|b s].
  - destruct (Ascii.eqb_spec a CR) as [->|E]; reflexivity.
  - change (trim_end (String a (drop_cr (String b s)))) with
      (match trim_end (drop_cr (String b s)) with
       | EmptyString => if is_ws a then "" else String a ""
       | r0 => String a r0 end). now rewrite IH.
Qed.
Lemma trim_drop_cr s : trim (drop_cr s) = trim s.
Proof. rewrite <- trim_trim_end, drop_cr_end. apply trim_trim_end. Qed.

Lemma occurs_trim_end c s : occurs c (trim_end s) -> occurs c s.
Proof.
  induction s as [|a s IH]; [tauto|]. cbn [trim_end occurs]. destruct (trim_end s) as [|b r].
  - destruct (is_ws a); cbn; tauto.
  - intros [H|H]; [now left|]. right. now apply IH.
Qed.
Lemma without_trim_end c s : without c s -> without c (trim_end s).
Proof. unfold without. intros H I. now apply H, occurs_trim_end. Qed.
Lemma occurs_trim_start c s : occurs c (trim_start s) -> occurs c s.
Proof.
  induction s as [|a s IH]; [tauto|]. cbn [trim_start]. destruct (is_ws a); [|tauto].
  intros H. right. now apply IH.
Qed.
Lemma without_trim c s : without c s -> without c (trim s).
Proof. unfold without, trim. intros H I. now apply H, occurs_trim_start, occurs_trim_end. Qed.

(** A line [k = v] without the surrounding white space, when [k] starts with a character. *)
Lemma trim_key_value a k v : is_ws a = false ->
  trim (String a k ++ " = " ++ v) = String a k ++ " =" ++ trim_end (" " ++ v).
Proof.
  intros H. unfold trim. cbn [append]. cbn [trim_start]. rewrite H.
  change (String a (k ++ String " " (String "=" (String " " v))))
    with (String a k ++ String " " (String "=" (String " " v))).
  replace (String a k ++ String " " (String "=" (String " " v)))
    with ((String a k ++ String " " "") ++ String "=" (String " " v))
    by (rewrite app_assoc_str; reflexivity).
  rewrite trim_end_app by reflexivity. rewrite app_assoc_str. reflexivity.
Qed.
Lemma split_key_value k w : without EQS k ->
  split EQS (k ++ " =" ++ w) = (k ++ " ") :: split EQS w.
Proof.
  intros H. replace (k ++ " =" ++ w) with ((k ++ " ") ++ String EQS w)
    by (rewrite app_assoc_str; reflexivity).
  apply split_at. apply without_app. split; [exact H|].
  apply without_cons. split; [discriminate|apply without_empty].
Qed.

(** * [split_whitespace] *)
Lemma split_ws_whole s : (forall c, is_ws c = true -> without c s) -> split_ws s = [s].
Proof.
  induction s as [|a s IH]; intros H; [reflexivity|]. cbn [split_ws].
  destruct (is_ws a) eqn:W.
  - exfalso. apply (H a W). now left.
  - rewrite IH; [reflexivity|]. intros c Hc. apply (without_cons c a s), (H c Hc).
Qed.
Lemma split_ws_at s c t : (forall c, is_ws c = true -> without c s) -> is_ws c = true ->
  split_ws (s ++ String c t) = s :: split_ws t.
Proof.
  induction s as [|a s IH]; intros H Hc; cbn [append split_ws].
  - now rewrite Hc.
  - destruct (is_ws a) eqn:W.
    + exfalso. apply (H a W). now left.
    + rewrite IH; [reflexivity| |exact Hc]. intros d Hd. apply (without_cons d a s), (H d Hd).
Qed.
Lemma split_whitespace_blank c s : is_ws c = true ->
  split_whitespace (String c s) = split_whitespace s.
Proof. intros H. unfold split_whitespace. cbn [split_ws]. rewrite H. reflexivity. Qed.
Lemma split_whitespace_blanks n s : split_whitespace (blanks n ++ s) = split_whitespace s.
Proof.
  induction n as [|n IH]; [reflexivity|]. cbn [blanks append].
  rewrite split_whitespace_blank by reflexivity. exact IH.
Qed.
Lemma split_whitespace_word s : word s -> split_whitespace s = [s].
Proof.
  intros (N & _ & W). unfold split_whitespace. rewrite split_ws_whole by exact W. cbn [filter].
  destruct (String.eqb_spec s ""); [contradiction|reflexivity].
Qed.
Lemma split_whitespace_at s c t : word s -> is_ws c = true ->
  split_whitespace (s ++ String c t) = s :: split_whitespace t.
Proof.
  intros (N & _ & W) H. unfold split_whitespace. rewrite split_ws_at by assumption. cbn [filter].
  destruct (String.eqb_spec s ""); [contradiction|reflexivity].
Qed.

Lemma trim_end_ws_free s : (forall c, is_ws c = true -> without c s) -> trim_end s = s.
Proof.
  induction s as [|a s IH]; intros H; [reflexivity|]. cbn [trim_end].
  rewrite IH by (intros c Hc; apply (without_cons c a s), (H c Hc)).
  destruct s as [|b s]; [|reflexivity].
  destruct (is_ws a) eqn:W; [|reflexivity]. exfalso. apply (H a W). now left.
Qed.
Lemma trim_word s : word s -> trim s = s.
Proof.
  intros (N & _ & W). unfold trim. destruct s as [|a s]; [reflexivity|]. cbn [trim_start].
  destruct (is_ws a) eqn:E; [|now apply trim_end_ws_free]. exfalso. apply (W a E). now left.
Qed.

(** A word, blanks, a tabulation and a word: the two words. *)
Lemma two_words n e v : word e -> word v ->
  split_whitespace (trim (" " ++ pad n e ++ String TAB v)) = [e; v].
Proof.
  intros He Hv. change (" " ++ pad n e ++ String TAB v) with (String " " (pad n e ++ String TAB v)).
  rewrite trim_ws by reflexivity.
  assert (T : trim (pad n e ++ String TAB v) = pad n e ++ String TAB v).
  { destruct e as [|a e]; [destruct He; congruence|]. unfold pad. unfold trim. cbn [append trim_start].
    destruct (is_ws a) eqn:E; [exfalso; apply (proj2 (proj2 He) a E); now left|].
    destruct v as [|b v]; [destruct Hv; congruence|].
    set (u := blanks (n - String.length (String a e))).
    change (String a ((e ++ u) ++ String TAB (String b v)))
      with ((String a e ++ u) ++ String TAB (String b v)).
    replace ((String a e ++ u) ++ String TAB (String b v))
      with (((String a e ++ u) ++ String TAB "") ++ String b v)
      by (rewrite app_assoc_str; reflexivity).
    assert (B : is_ws b = false).
    { destruct (is_ws b) eqn:B; [|reflexivity]. exfalso. apply (proj2 (proj2 Hv) b B). now left. }
    rewrite trim_end_app by exact B. rewrite trim_end_ws_free; [reflexivity|].
    intros c Hc. apply (without_cons c b v), (proj2 (proj2 Hv) c Hc). }
  rewrite T. unfold pad. rewrite app_assoc_str. destruct (n - String.length e)%nat as [|k].
  - cbn [blanks append]. rewrite split_whitespace_at by (assumption || reflexivity).
    now rewrite split_whitespace_word.
  - cbn [blanks]. change (e ++ String " " (blanks k) ++ String TAB v)
      with (e ++ String " " (blanks k ++ String TAB v)).
    rewrite split_whitespace_at by (assumption || reflexivity).
    rewrite split_whitespace_blanks, split_whitespace_blank by reflexivity.
    now rewrite split_whitespace_word.
Qed.

(** * [lines] *)
Lemma drop_last_empty_app l : drop_last_empty (l ++ [""])%list = l.
Proof.
  induction l as [|s l IH]; [reflexivity|]. cbn [List.app drop_last_empty]. rewrite IH.
  destruct s; [|reflexivity]. destruct l; reflexivity.
Qed.
Lemma split_lines l : Forall (without LF) l ->
  split LF (concat_all (map ln l)) = (l ++ [""])%list.
Proof.
  induction 1 as [|s l H1 H2 IH]; [reflexivity|]. cbn [map concat_all List.app].
  unfold ln at 1. rewrite app_assoc_str. cbn [append]. rewrite split_at by exact H1. now rewrite IH.
Qed.
Lemma lines_of l : Forall (without LF) l -> lines (concat_all (map ln l)) = map drop_cr l.
Proof. intros H. unfold lines. now rewrite split_lines, drop_last_empty_app. Qed.

(** * [prefix] *)
Lemma prefix_app p c : forall s t, without c p -> prefix p (s ++ String c t) = true -> prefix p s = true.
Proof.
  induction p as [|a p IH]; intros s t H; [destruct s; reflexivity|].
  apply without_cons in H. destruct H as [H1 H2]. destruct s as [|b s]; cbn [append prefix].
  - destruct (ascii_dec a c); [contradiction|discriminate].
  - destruct (ascii_dec a b); [|discriminate]. now apply IH.
Qed.
