(** Decimal suffixes and variable length integers. *)
From Coq Require Import Strings.String Strings.Ascii Strings.Byte Numbers.DecimalString Numbers.DecimalN.
From Verif.Lib Require Import Prelude.
From Verif.Model Require Import KV.
Open Scope N_scope.

Lemma kv_put_eq s k v : kv_put s k v k = v.
Proof. unfold kv_put. destruct (skey_dec k k); congruence. Qed.
Lemma kv_put_ne s k v k' : k <> k' -> kv_put s k v k' = s k'.
Proof. unfold kv_put. destruct (skey_dec k k'); congruence. Qed.

Fixpoint has_char (c : ascii) (s : string) : bool :=
  match s with EmptyString => false | String x r => (if ascii_dec x c then true else false) || has_char c r end.
Lemma has_char_app c a b : has_char c (a ++ b)%string = has_char c a || has_char c b.
Proof. induction a as [|x a IH]; cbn; [reflexivity|]. rewrite IH, orb_assoc. reflexivity. Qed.

(** cutting at the last separator is unique *)
Lemma last_sep c : forall a b u v, has_char c u = false -> has_char c v = false ->
  (a ++ String c u)%string = (b ++ String c v)%string -> a = b /\ u = v.
Proof.
  induction a as [|x a IH]; intros [|y b] u v Hu Hv E; cbn in E.
  - injection E as ->. auto.
  - injection E as E1 E2. subst. rewrite has_char_app in Hu. cbn in Hu. destruct (ascii_dec y y); [|congruence].
    rewrite orb_true_r in Hu. discriminate.
  - injection E as E1 E2. subst. rewrite has_char_app in Hv. cbn in Hv. destruct (ascii_dec c c); [|congruence].
    rewrite orb_true_r in Hv. discriminate.
  - injection E as E1 E2. subst. destruct (IH b u v Hu Hv E2) as (-> & ->). auto.
Qed.

Lemma itoa_inj n m : itoa n = itoa m -> n = m.
Proof.
  intros E. assert (H : forall x, option_map N.of_uint (NilZero.uint_of_string (itoa x)) = Some x).
  { clear. intros x. unfold itoa. destruct (N.to_uint x) eqn:E; rewrite ?NilZero.usu by (intros C; congruence);
      try (cbn [option_map]; rewrite <- E, Unsigned.of_to; reflexivity).
    assert (x = 0) by (rewrite <- (Unsigned.of_to x), E; reflexivity). subst. reflexivity. }
  pose proof (H n) as H1. rewrite E, (H m) in H1. congruence.
Qed.

Lemma uint_no_char c d : ~ In c ["0"; "1"; "2"; "3"; "4"; "5"; "6"; "7"; "8"; "9"]%char ->
  has_char c (NilEmpty.string_of_uint d) = false.
Proof.
  intros H. cbn [In] in H.
  induction d; cbn -[ascii_dec]; [reflexivity|..]; rewrite IHd, orb_false_r;
    (match goal with |- context [ascii_dec ?x c] => destruct (ascii_dec x c) end; [exfalso; tauto|reflexivity]).
Qed.
Lemma itoa_no_char c n : ~ In c ["0"; "1"; "2"; "3"; "4"; "5"; "6"; "7"; "8"; "9"]%char -> has_char c (itoa n) = false.
Proof.
  intros H. unfold itoa, NilZero.string_of_uint. destruct (N.to_uint n) eqn:E;
    try (rewrite <- E; apply uint_no_char; exact H).
  cbn -[ascii_dec]. match goal with |- context [ascii_dec ?x c] => destruct (ascii_dec x c) end; [exfalso; cbn in H; tauto|reflexivity].
Qed.

Lemma app_str_inj_r : forall a b s, (a ++ s)%string = (b ++ s)%string -> a = b.
Proof.
  assert (L : forall a b : string, String.length (a ++ b) = (String.length a + String.length b)%nat).
  { induction a as [|x a IH]; intros b; cbn; [reflexivity|]. rewrite IH. reflexivity. }
  induction a as [|x a IH]; intros [|y b] s E; cbn in E.
  - reflexivity.
  - apply (f_equal String.length) in E. cbn in E. rewrite L in E. lia.
  - apply (f_equal String.length) in E. cbn in E. rewrite L in E. lia.
  - injection E as -> E. f_equal. eapply IH. exact E.
Qed.
Lemma app_str_inj_l : forall s a b, (s ++ a)%string = (s ++ b)%string -> a = b.
Proof. induction s as [|x s IH]; intros a b E; cbn in E; [exact E|]. injection E as E. auto. Qed.

(** ** variable length integers *)
Lemma byte_of n : n < 256 -> exists b, Byte.of_N n = Some b /\ Byte.to_N b = n.
Proof.
  intros H. destruct (Byte.of_N n) as [b|] eqn:E.
  - exists b. split; [reflexivity|]. apply Byte.to_of_N. exact E.
  - exfalso. apply Byte.of_N_None_iff in E. lia.
Qed.

Lemma put_S f n : put_uvarint (S f) n =
  if n <? 128 then match Byte.of_N n with Some b => [b] | None => [] end
  else match Byte.of_N (n mod 128 + 128) with Some b => b :: put_uvarint f (n / 128) | None => [] end.
Proof. reflexivity. Qed.
Lemma uvar_S f size acc shift x r : uvarint_from (S f) size acc shift (x :: r) =
  if Byte.to_N x <? 128 then
    if Nat.eqb f 0 && (1 <? Byte.to_N x) then None else Some (acc + Byte.to_N x * shift, S size)
  else uvarint_from f (S size) (acc + (Byte.to_N x - 128) * shift) (shift * 128) r.
Proof. reflexivity. Qed.
Lemma uvarint_put : forall f n size acc shift r, n < 2 * 128 ^ N.of_nat f ->
  uvarint_from (S f) size acc shift (put_uvarint (S f) n ++ r)
  = Some (acc + n * shift, (size + length (put_uvarint (S f) n))%nat).
Proof.
  induction f as [|f IH]; intros n size acc shift r Hn.
  - cbn [put_uvarint]. change (128 ^ N.of_nat 0) with 1 in Hn. destruct (N.ltb_spec n 128); [|lia].
    destruct (byte_of n ltac:(lia)) as (b & -> & Hb). cbn -[N.mul N.ltb]. rewrite Hb.
    destruct (N.ltb_spec n 128); [|lia]. destruct (N.ltb_spec 1 n); [lia|]. cbn. do 2 f_equal. lia.
  - rewrite (put_S (S f) n). destruct (N.ltb_spec n 128).
    + destruct (byte_of n ltac:(lia)) as (b & -> & Hb). cbn [app]. rewrite uvar_S, Hb.
      destruct (N.ltb_spec n 128); [|lia]. cbn [Nat.eqb andb length]. do 2 f_equal. lia.
    + destruct (byte_of (n mod 128 + 128)) as (b & -> & Hb).
      { pose proof (N.mod_lt n 128 ltac:(lia)). lia. }
      cbn [app]. rewrite uvar_S, Hb. destruct (N.ltb_spec (n mod 128 + 128) 128); [lia|].
      rewrite IH.
      * do 2 f_equal; [|cbn [length]; lia]. replace (n mod 128 + 128 - 128) with (n mod 128) by lia.
        rewrite (N.div_mod' n 128) at 3. lia.
      * apply N.div_lt_upper_bound; [lia|]. rewrite Nat2N.inj_succ, N.pow_succ_r' in Hn. lia.
Qed.
Lemma uvarint_ok n r : n < 2 ^ 64 -> uvarint (put_uvarint 10 n ++ r) = Some (n, length (put_uvarint 10 n)).
Proof.
  intros H. unfold uvarint. rewrite (uvarint_put 9) by exact H. do 2 f_equal; lia.
Qed.
Lemma put_uvarint_len : forall j f n, n < 128 ^ N.of_nat (S j) -> (length (put_uvarint f n) <= S j)%nat.
Proof.
  induction j as [|j IH]; intros f n H; (destruct f as [|f]; [cbn; lia|]); cbn [put_uvarint];
    rewrite Nat2N.inj_succ, N.pow_succ_r' in H.
  - change (128 ^ N.of_nat 0) with 1 in H. destruct (N.ltb_spec n 128); [|lia]. destruct (Byte.of_N n); cbn; lia.
  - destruct (N.ltb_spec n 128); [destruct (Byte.of_N n); cbn; lia|]. destruct (Byte.of_N _); [|cbn; lia].
    cbn [length]. apply le_n_S, IH. apply N.div_lt_upper_bound; lia.
Qed.
