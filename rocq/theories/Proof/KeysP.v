(** Proofs about generated names and storage keys. *)
From Coq Require Import Strings.String Strings.Ascii.
From Coq Require Import Decimal DecimalN.
From Verif.Lib Require Import Prelude Bytes.
From Verif.Model Require Import Keys.
From Verif.Spec Require Import KeySpec.
Open Scope N_scope.

Lemma char_code r : N_of_ascii (char_of r) =
  (let m := r mod 62 in if m <? 10 then 48 + m else if m <? 36 then 55 + m else 61 + m).
Proof.
  unfold char_of. assert (r mod 62 < 62) by (apply N.mod_lt; discriminate).
  cbn zeta. rewrite N_ascii_embedding.
  - destruct (r mod 62 <? 10) eqn:E1; [reflexivity|]. destruct (r mod 62 <? 36) eqn:E2; lia.
  - destruct (r mod 62 <? 10) eqn:E1; [lia|]. destruct (r mod 62 <? 36) eqn:E2; lia.
Qed.

Lemma char_alnum r : letter_or_digit (char_of r).
Proof.
  unfold letter_or_digit. rewrite char_code. assert (r mod 62 < 62) by (apply N.mod_lt; discriminate).
  cbn zeta. destruct (r mod 62 <? 10) eqn:E1; [lia|]. destruct (r mod 62 <? 36) eqn:E2; lia.
Qed.

Lemma char_eq r s : char_of r = char_of s <-> r mod 62 = s mod 62.
Proof.
  split; intros E.
  - assert (H : N_of_ascii (char_of r) = N_of_ascii (char_of s)) by congruence. rewrite !char_code in H. cbn zeta in H.
    destruct (r mod 62 <? 10) eqn:A; destruct (s mod 62 <? 10) eqn:B;
      destruct (r mod 62 <? 36) eqn:C; destruct (s mod 62 <? 36) eqn:D; lia.
  - unfold char_of. rewrite E. reflexivity.
Qed.

Lemma time_length n t : length (time_bytes n t) = n.
Proof. revert t. induction n as [|n IH]; intros; cbn; [reflexivity|rewrite IH; reflexivity]. Qed.

Theorem c47_shape : forall rnd nanos,
  length (rand_string rnd nanos) = (length rnd + 8)%nat /\ Forall letter_or_digit (rand_string rnd nanos).
Proof.
  intros. unfold rand_string. split.
  - rewrite map_length, app_length, time_length. reflexivity.
  - apply Forall_forall. intros c Hc. apply in_map_iff in Hc as (x & <- & _). apply char_alnum.
Qed.

Lemma map_char_eq xs ys : map char_of xs = map char_of ys <-> map (fun b => b mod 62) xs = map (fun b => b mod 62) ys.
Proof.
  revert ys. induction xs as [|x xs IH]; intros [|y ys]; cbn [map]; split; intros E; try discriminate; try reflexivity.
  - injection E as E1 E2. apply char_eq in E1. apply IH in E2. congruence.
  - injection E as E1 E2. apply char_eq in E1. apply IH in E2. congruence.
Qed.

Lemma time_eq n t u : (0 <= t)%Z -> (0 <= u)%Z ->
  map (fun b => b mod 62) (time_bytes n t) = map (fun b => b mod 62) (time_bytes n u) <->
  (t mod 62 ^ Z.of_nat n = u mod 62 ^ Z.of_nat n)%Z.
Proof.
  revert t u. induction n as [|n IH]; intros t u Ht Hu.
  - cbn. rewrite !Z.mod_1_r. tauto.
  - cbn [time_bytes map]. rewrite Nat2Z.inj_succ, Z.pow_succ_r by lia.
    rewrite !Z.rem_mod_nonneg by lia. rewrite !Z.quot_div_nonneg by lia.
    rewrite !Z.rem_mul_r by lia.
    assert (A : forall v, (Z.to_N ((v mod 62) mod 256) mod 62)%N = Z.to_N (v mod 62)).
    { intros v. assert (0 <= v mod 62 < 62)%Z by (apply Z.mod_pos_bound; lia).
      rewrite (Z.mod_small (v mod 62) 256) by lia. apply N.mod_small. lia. }
    rewrite !A.
    assert (Bt : (0 <= t mod 62 < 62)%Z) by (apply Z.mod_pos_bound; lia).
    assert (Bu : (0 <= u mod 62 < 62)%Z) by (apply Z.mod_pos_bound; lia).
    assert (Dt : (0 <= t / 62)%Z) by (apply Z.div_pos; lia). assert (Du : (0 <= u / 62)%Z) by (apply Z.div_pos; lia).
    specialize (IH _ _ Dt Du). split; intros E.
    + injection E as E1 E2. apply IH in E2. rewrite E2. apply Z2N.inj in E1; lia.
    + generalize dependent (t mod 62)%Z. generalize dependent (u mod 62)%Z. intros b Bb a Ba E.
      assert (a = b /\ ((t / 62) mod 62 ^ Z.of_nat n = (u / 62) mod 62 ^ Z.of_nat n)%Z).
      { generalize dependent ((t / 62) mod 62 ^ Z.of_nat n)%Z. generalize dependent ((u / 62) mod 62 ^ Z.of_nat n)%Z. clear - Ba Bb. intros. lia. }
      destruct H as (-> & H). apply IH in H. rewrite H. reflexivity.
Qed.

Lemma app_eq_len {A} (a b c d : list A) : length b = length d -> a ++ b = c ++ d <-> a = c /\ b = d.
Proof.
  intros L. split; [|intros (-> & ->); reflexivity].
  revert c. induction a as [|x a IH]; intros [|y c] E; cbn in E; subst.
  - auto.
  - exfalso. cbn in L. rewrite app_length in L. lia.
  - exfalso. cbn in L. rewrite app_length in L. lia.
  - injection E as -> E. apply IH in E as (-> & ->). auto.
Qed.

Theorem c47_same : forall rnd rnd' nanos nanos', (0 <= nanos)%Z -> (0 <= nanos')%Z ->
  rand_string rnd nanos = rand_string rnd' nanos' <->
  map (fun b => b mod 62) rnd = map (fun b => b mod 62) rnd' /\
  ((nanos / 100000) mod 62 ^ 8 = (nanos' / 100000) mod 62 ^ 8)%Z.
Proof.
  intros r r' n n' H H'. unfold rand_string. rewrite map_char_eq, !map_app.
  rewrite app_eq_len by (rewrite !map_length, !time_length; reflexivity).
  unfold ticks. rewrite !Z.quot_div_nonneg by lia.
  rewrite time_eq by (apply Z.div_pos; lia). reflexivity.
Qed.

(** ** decimal numbers *)
Definition value (c : ascii) : uint -> uint :=
  match N_of_ascii c with
  | 48 => D0 | 49 => D1 | 50 => D2 | 51 => D3 | 52 => D4 | 53 => D5 | 54 => D6 | 55 => D7 | 56 => D8 | 57 => D9
  | _ => fun d => d
  end.
Definition read (s : bytes) : uint := fold_right value Nil s.
Lemma read_digits d : read (digits d) = d.
Proof. unfold read. induction d; cbn [digits fold_right]; rewrite ?IHd; reflexivity. Qed.
Lemma read_zeros k s : N.of_uint (read (repeat "0"%char k ++ s)) = N.of_uint (read s).
Proof. induction k as [|k IH]; [reflexivity|]. transitivity (N.of_uint (read (repeat "0"%char k ++ s))); [reflexivity|exact IH]. Qed.
Lemma read_decimal n : N.of_uint (read (decimal n)) = n.
Proof. unfold decimal. rewrite read_digits. apply Unsigned.of_to. Qed.
Lemma read_decimal6 n : N.of_uint (read (decimal6 n)) = n.
Proof. unfold decimal6. rewrite read_zeros. apply read_decimal. Qed.

Definition isdigit (c : ascii) : Prop := 48 <= N_of_ascii c <= 57.
Lemma digits_digit d : Forall isdigit (digits d).
Proof. induction d; cbn [digits]; constructor; auto; unfold isdigit; cbn; lia. Qed.
Lemma decimal_digit n : Forall isdigit (decimal n).
Proof. apply digits_digit. Qed.
Lemma decimal6_digit n : Forall isdigit (decimal6 n).
Proof.
  unfold decimal6. apply Forall_app. split; [|apply decimal_digit].
  apply Forall_forall. intros c Hc. apply repeat_spec in Hc. subst. unfold isdigit. cbn. lia.
Qed.

(** the first occurrence of a separator is determined *)
Lemma first_sep {A} (x : A) (a b c d : list A) : ~ In x a -> ~ In x c -> a ++ x :: b = c ++ x :: d -> a = c /\ b = d.
Proof.
  revert c. induction a as [|y a IH]; intros [|z c] Ha Hc E; cbn in E.
  - injection E as ->. auto.
  - injection E as -> E. exfalso. apply Hc. left. reflexivity.
  - injection E as -> E. exfalso. apply Ha. left. reflexivity.
  - injection E as -> E. apply IH in E as (-> & ->); auto; intros F; [apply Ha|apply Hc]; right; exact F.
Qed.
Lemma last_sep {A} (x : A) (a b c d : list A) : ~ In x b -> ~ In x d -> a ++ x :: b = c ++ x :: d -> a = c /\ b = d.
Proof.
  intros Hb Hd E. apply (f_equal (@rev A)) in E. rewrite !rev_app_distr in E. cbn [rev] in E.
  rewrite <- !app_assoc in E. cbn [app] in E.
  apply first_sep in E; [|rewrite <- in_rev; assumption|rewrite <- in_rev; assumption].
  destruct E as (E1 & E2). split.
  - rewrite <- (rev_involutive a), <- (rev_involutive c), E2. reflexivity.
  - rewrite <- (rev_involutive b), <- (rev_involutive d), E1. reflexivity.
Qed.
Lemma digit_not c s : Forall isdigit s -> (N_of_ascii c < 48 \/ 57 < N_of_ascii c) -> ~ In c s.
Proof. intros F H I. rewrite Forall_forall in F. apply F in I. unfold isdigit in I. lia. Qed.
Lemma alnum_not c s : Forall letter_or_digit s -> N_of_ascii c = 45 -> ~ In c s.
Proof. intros F H I. rewrite Forall_forall in F. apply F in I. unfold letter_or_digit in I. cbn zeta in I. rewrite H in I. lia. Qed.

Theorem c24_segment : forall p p' i i', segment_key p i = segment_key p' i' -> p = p' /\ i = i'.
Proof.
  intros p p' i i' E. unfold segment_key in E. apply last_sep in E.
  - destruct E as (-> & E). split; [reflexivity|]. rewrite <- (read_decimal6 i), E. apply read_decimal6.
  - apply digit_not; [apply decimal6_digit|left; reflexivity].
  - apply digit_not; [apply decimal6_digit|left; reflexivity].
Qed.
Theorem c24_cache : forall p p' i i', cache_key p i = cache_key p' i' -> p = p' /\ i = i'.
Proof.
  intros p p' i i' E. unfold cache_key in E. apply first_sep in E.
  - destruct E as (E & E2). apply app_inj_tail in E2 as (-> & _). split; [reflexivity|].
    rewrite <- (read_decimal i), E. apply read_decimal.
  - apply digit_not; [apply decimal_digit|right; reflexivity].
  - apply digit_not; [apply decimal_digit|right; reflexivity].
Qed.

Lemma generated_shape s : generated s -> length s = 16%nat /\ Forall letter_or_digit s.
Proof. intros (r & t & L & ->). destruct (c47_shape r t) as (A & B). rewrite A, L. auto. Qed.
Lemma key_has_dash p i : In "-"%char (segment_key p i).
Proof. unfold segment_key. apply in_or_app. right. left. reflexivity. Qed.
Lemma generated_no_dash p : generated p -> ~ In "-"%char p.
Proof. intros G. apply alnum_not; [apply generated_shape, G|reflexivity]. Qed.
Lemma key_long p i : generated p -> (17 <= length (segment_key p i))%nat.
Proof. intros G. unfold segment_key. rewrite app_length. cbn. apply generated_shape in G as (-> & _). lia. Qed.

Theorem c24_records : forall r r', generated_record r -> generated_record r' -> record_key r = record_key r' -> r = r'.
Proof.
  intros r r' G G' E.
  destruct r as [p i|p| |], r' as [p' i'|p'| |]; cbn [generated_record record_key] in *; try reflexivity;
    try (apply c24_segment in E as (-> & ->); reflexivity);
    try (subst; reflexivity).
  - exfalso. apply (generated_no_dash p' G'). rewrite <- E. apply key_has_dash.
  - exfalso. pose proof (key_long p i G) as L. rewrite E in L. cbn in L. lia.
  - exfalso. pose proof (key_long p i G) as L. rewrite E in L. cbn in L. lia.
  - exfalso. apply (generated_no_dash p G). rewrite E. apply key_has_dash.
  - exfalso. apply generated_shape in G as (L & _). rewrite E in L. discriminate L.
  - exfalso. apply generated_shape in G as (L & _). rewrite E in L. discriminate L.
  - exfalso. pose proof (key_long p' i' G') as L. rewrite <- E in L. cbn in L. lia.
  - exfalso. apply generated_shape in G' as (L & _). rewrite <- E in L. discriminate L.
  - discriminate E.
  - exfalso. pose proof (key_long p' i' G') as L. rewrite <- E in L. cbn in L. lia.
  - exfalso. apply generated_shape in G' as (L & _). rewrite <- E in L. discriminate L.
  - discriminate E.
Qed.
