(** Proofs about the MessagePack primitives. *)
From Coq Require Import Strings.Byte Strings.String.
From Verif.Lib Require Import Prelude.
From Verif.Model Require Import Msgp.
Open Scope N_scope.

(** reading back what was written, followed by anything *)
Definition reads {A} (p : reader A) (w : wire) (a : A) : Prop := forall r, p (w ++ r) = Some (a, r).
(** more input does not change what was read *)
Definition mono {A} (p : reader A) : Prop := forall b a r s, p b = Some (a, r) -> p (b ++ s) = Some (a, r ++ s).

Lemma mono_ret {A} (a : A) : mono (ret a).
Proof. intros b x r s E. unfold ret in *. injection E as <- <-. reflexivity. Qed.
Lemma mono_fail {A} : mono (@fail A).
Proof. intros b x r s E. discriminate E. Qed.
Lemma mono_bind {A B} (p : reader A) (f : A -> reader B) : mono p -> (forall a, mono (f a)) -> mono (bind p f).
Proof.
  intros Hp Hf b x r s E. unfold bind in *. destruct (p b) as [[a r']|] eqn:Ep; [|discriminate].
  rewrite (Hp _ _ _ s Ep). apply Hf, E.
Qed.
Lemma mono_next : mono next.
Proof. intros [|c b] a r s E; cbn in *; [discriminate|]. injection E as <- <-. reflexivity. Qed.
Lemma mono_take n : mono (take n).
Proof.
  intros b a r s E. unfold take in *. rewrite app_length. destruct (length b <? n)%nat eqn:L; [discriminate|].
  apply Nat.ltb_ge in L. injection E as <- <-.
  replace (length b + length s <? n)%nat with false by (symmetry; apply Nat.ltb_ge; lia).
  rewrite firstn_app, skipn_app. replace (n - length b)%nat with 0%nat by lia. cbn. rewrite app_nil_r. reflexivity.
Qed.
Lemma mono_check {A} c (p : reader A) : mono p -> mono (check c p).
Proof. intros H. destruct c; [exact H|apply mono_fail]. Qed.
Lemma mono_times {A} n (p : reader A) : mono p -> mono (times n p).
Proof.
  intros H. induction n as [|n IH]; cbn [times]; [apply mono_ret|].
  apply mono_bind; [exact H|]. intros a. apply mono_bind; [exact IH|]. intros l. apply mono_ret.
Qed.
Lemma mono_if {A} (c : bool) (p q : reader A) : mono p -> mono q -> mono (if c then p else q).
Proof. destruct c; auto. Qed.
Lemma mono_get k : mono (get k).
Proof. apply mono_bind; [apply mono_take|]. intros b. apply mono_ret. Qed.

Ltac mono_match := match goal with |- mono (match ?x with _ => _ end) => destruct x end.
Ltac mono_tac := repeat first [apply mono_ret | apply mono_fail | apply mono_get | apply mono_take | apply mono_next
  | apply mono_check | apply mono_if | (apply mono_bind; [|intros ?]) | mono_match].
Lemma mono_integer : mono r_integer. Proof. unfold r_integer. mono_tac. Qed.
Lemma mono_uint k : mono (r_uint k).
Proof. apply mono_bind; [apply mono_integer|intros z]. mono_tac. Qed.
Lemma mono_int : mono r_int.
Proof. apply mono_bind; [apply mono_integer|intros z]. mono_tac. Qed.
Lemma mono_bool : mono r_bool. Proof. unfold r_bool. mono_tac. Qed.
Lemma mono_str : mono r_str. Proof. unfold r_str. mono_tac. Qed.
Lemma mono_bin : mono r_bin. Proof. unfold r_bin. mono_tac. Qed.
Lemma mono_arr : mono r_arr. Proof. unfold r_arr. mono_tac. Qed.
Lemma mono_map : mono r_map. Proof. unfold r_map. mono_tac. Qed.

(** a reader that reads back a writer fails on every proper prefix *)
Lemma truncated {A} (p : reader A) w a b c : mono p -> reads p w a -> w = b ++ c -> c <> [] -> p b = None.
Proof.
  intros M R E Hc. destruct (p b) as [[x r]|] eqn:Ep; [|reflexivity]. exfalso.
  pose proof (M _ _ _ c Ep) as H. rewrite <- E in H. pose proof (R []) as H2. rewrite app_nil_r in H2.
  rewrite H in H2. injection H2 as _ H2. apply app_eq_nil in H2 as (_ & H2). contradiction.
Qed.

(** ** composition *)
Lemma reads_ret {A} (a : A) : reads (ret a) [] a.
Proof. intros r. reflexivity. Qed.
Lemma reads_bind {A B} (p : reader A) (f : A -> reader B) w1 w2 a b : reads p w1 a -> reads (f a) w2 b -> reads (bind p f) (w1 ++ w2) b.
Proof. intros H1 H2 r. unfold bind. rewrite <- app_assoc, H1. apply H2. Qed.
Lemma reads_end {A B} (p : reader A) (f : A -> B) w a : reads p w a -> reads (x <- p ;; ret (f x)) w (f a).
Proof. intros H. rewrite <- (app_nil_r w). apply (reads_bind _ _ _ _ a); [exact H|apply reads_ret]. Qed.
Lemma reads_check {A} c (p : reader A) w a : c = true -> reads p w a -> reads (check c p) w a.
Proof. intros -> H. exact H. Qed.
Lemma reads_next c : reads next [c] (bN c).
Proof. intros r. reflexivity. Qed.
Lemma reads_take w : reads (take (length w)) w w.
Proof.
  intros r. unfold take. rewrite app_length. replace (length w + length r <? length w)%nat with false by (symmetry; apply Nat.ltb_ge; lia).
  rewrite firstn_app, skipn_app, Nat.sub_diag, firstn_all, skipn_all. cbn. rewrite app_nil_r. reflexivity.
Qed.
Lemma reads_times {A} (p : reader A) (wr : A -> wire) l : (forall x, In x l -> reads p (wr x) x) ->
  reads (times (length l) p) (flat_map wr l) l.
Proof.
  induction l as [|x l IH]; intros H; cbn [times length flat_map]; [apply reads_ret|].
  apply (reads_bind _ _ _ _ x); [apply H; left; reflexivity|]. apply (reads_end _ (cons x)). apply IH. intros y Hy. apply H. right. exact Hy.
Qed.

(** ** bytes and numbers *)
Lemma bN_Nb n : bN (Nb n) = n mod 256.
Proof.
  unfold bN, Nb. destruct (Byte.of_N (n mod 256)) as [b|] eqn:E.
  - apply Byte.to_of_N, E.
  - apply Byte.of_N_None_iff in E. exfalso. assert (n mod 256 < 256) by (apply N.mod_lt; discriminate). lia.
Qed.
Lemma bN_small n : n < 256 -> bN (Nb n) = n.
Proof. intros H. rewrite bN_Nb. apply N.mod_small, H. Qed.
Lemma be_length k n : length (be k n) = k.
Proof. induction k as [|k IH]; cbn; [reflexivity|]. rewrite IH. reflexivity. Qed.
Lemma val_be k n acc : val acc (be k n) = acc * 256 ^ N.of_nat k + n mod 256 ^ N.of_nat k.
Proof.
  revert acc. induction k as [|k IH]; intros acc.
  - cbn. rewrite N.mod_1_r. lia.
  - cbn [be val]. rewrite IH, bN_Nb. rewrite Nat2N.inj_succ, N.pow_succ_r'.
    rewrite (N.mul_comm 256 (256 ^ N.of_nat k)). rewrite N.mod_mul_r by (try apply N.pow_nonzero; discriminate).
    rewrite !N.mul_add_distr_r, N.mul_assoc. generalize (256 ^ N.of_nat k). intros q.
    rewrite <- !N.mul_assoc, (N.mul_comm 256 q), (N.mul_comm ((n / q) mod 256) q). lia.
Qed.
Lemma reads_get k n : n < 256 ^ N.of_nat k -> reads (get k) (be k n) n.
Proof.
  intros H. unfold get. pose proof (reads_end (take k) (val 0) (be k n) (be k n)) as E.
  rewrite val_be, N.mul_0_l, N.add_0_l, N.mod_small in E by exact H. apply E.
  pose proof (reads_take (be k n)) as T. rewrite be_length in T. exact T.
Qed.

Lemma p1 : 256 ^ N.of_nat 1 = 2 ^ 8. Proof. reflexivity. Qed.
Lemma p2 : 256 ^ N.of_nat 2 = 2 ^ 16. Proof. reflexivity. Qed.
Lemma p4 : 256 ^ N.of_nat 4 = 2 ^ 32. Proof. reflexivity. Qed.
Lemma p8 : 256 ^ N.of_nat 8 = 2 ^ 64. Proof. reflexivity. Qed.

(** a leading byte decides how to go on *)
Lemma reads_lead {A} (f : N -> reader A) c w a : c < 256 -> reads (f c) w a -> reads (bind next f) (Nb c :: w) a.
Proof. intros Hc H. apply (reads_bind next f [Nb c] w (bN (Nb c)) a); [apply reads_next|]. rewrite bN_small by exact Hc. exact H. Qed.

Lemma integer_uint n : n < 2 ^ 64 -> reads r_integer (w_uint n) (Z.of_N n).
Proof.
  intros H. unfold w_uint, r_integer.
  destruct (n <? 128) eqn:E1; [|destruct (n <? 2 ^ 8) eqn:E2; [|destruct (n <? 2 ^ 16) eqn:E3; [|destruct (n <? 2 ^ 32) eqn:E4]]].
  - apply N.ltb_lt in E1. apply reads_lead; [lia|]. change 0x80 with 128. replace (n <? 128) with true by lia. apply reads_ret.
  - apply reads_lead; [reflexivity|]. cbv beta. apply (reads_end (get 1) Z.of_N). apply reads_get. rewrite p1. apply N.ltb_lt, E2.
  - apply reads_lead; [reflexivity|]. apply (reads_end (get 2) Z.of_N). apply reads_get. rewrite p2. apply N.ltb_lt, E3.
  - apply reads_lead; [reflexivity|]. apply (reads_end (get 4) Z.of_N). apply reads_get. rewrite p4. apply N.ltb_lt, E4.
  - apply reads_lead; [reflexivity|]. apply (reads_end (get 8) Z.of_N). apply reads_get. rewrite p8. exact H.
Qed.
Lemma reads_uint bits n : n < 2 ^ bits -> bits <= 64 -> reads (r_uint bits) (w_uint n) n.
Proof.
  intros H Hb. unfold r_uint.
  assert (H64 : n < 2 ^ 64) by (eapply N.lt_le_trans; [exact H|apply N.pow_le_mono_r; [discriminate|exact Hb]]).
  rewrite <- (app_nil_r (w_uint n)). eapply reads_bind; [apply integer_uint, H64|].
  apply reads_check.
  - assert (Z.of_N n < 2 ^ Z.of_N bits)%Z by (change 2%Z with (Z.of_N 2); rewrite <- (N2Z.inj_pow 2 bits); lia). lia.
  - rewrite N2Z.id. apply reads_ret.
Qed.

Lemma unsigned_bound k z : unsigned k z < 2 ^ (8 * N.of_nat k).
Proof.
  unfold unsigned. assert (0 < 2 ^ (8 * Z.of_nat k))%Z by (apply Z.pow_pos_nonneg; lia).
  pose proof (Z.mod_pos_bound z (2 ^ (8 * Z.of_nat k)) H) as B.
  assert (E : Z.of_N (2 ^ (8 * N.of_nat k)) = (2 ^ (8 * Z.of_nat k))%Z).
  { rewrite N2Z.inj_pow. f_equal. rewrite N2Z.inj_mul. f_equal. lia. }
  lia.
Qed.
Lemma signed_unsigned k z : (0 < k)%nat -> (- 2 ^ (8 * Z.of_nat k - 1) <= z < 2 ^ (8 * Z.of_nat k - 1))%Z -> signed k (unsigned k z) = z.
Proof.
  intros Hk H. unfold signed, unsigned.
  assert (E : (2 ^ (8 * Z.of_nat k) = 2 * 2 ^ (8 * Z.of_nat k - 1))%Z).
  { rewrite <- Z.pow_succ_r by lia. f_equal. lia. }
  assert (EN : Z.of_N (2 ^ (8 * N.of_nat k - 1)) = (2 ^ (8 * Z.of_nat k - 1))%Z).
  { rewrite N2Z.inj_pow. f_equal. rewrite N2Z.inj_sub by lia. rewrite N2Z.inj_mul. f_equal. f_equal. lia. }
  rewrite E. set (q := (2 ^ (8 * Z.of_nat k - 1))%Z) in *.
  destruct (Z_lt_le_dec z 0) as [Hz|Hz].
  - assert (M : (z mod (2 * q) = z + 2 * q)%Z).
    { symmetry. apply (Z.mod_unique z (2 * q) (-1)); lia. }
    rewrite M. replace (Z.to_N (z + 2 * q) <? 2 ^ (8 * N.of_nat k - 1)) with false by lia. lia.
  - rewrite Z.mod_small by lia. replace (Z.to_N z <? 2 ^ (8 * N.of_nat k - 1)) with true by lia. lia.
Qed.
Lemma signed_pos k z : (0 < k)%nat -> (0 <= z < 2 ^ (8 * Z.of_nat k - 1))%Z -> signed k (Z.to_N z) = z.
Proof.
  intros Hk H. rewrite <- (signed_unsigned k z Hk) at 2 by lia. unfold unsigned. f_equal. f_equal. symmetry. apply Z.mod_small.
  split; [lia|]. apply (Z.lt_le_trans _ (2 ^ (8 * Z.of_nat k - 1))); [lia|]. apply Z.pow_le_mono_r; lia.
Qed.

Lemma reads_signed k n : n < 256 ^ N.of_nat k -> reads (x <- get k ;; ret (signed k x)) (be k n) (signed k n).
Proof. intros H. apply (reads_end (get k) (signed k)). apply reads_get, H. Qed.

Lemma integer_int z : (- 2 ^ 63 <= z < 2 ^ 63)%Z -> reads r_integer (w_int z) z.
Proof.
  intros H. unfold w_int, r_integer. destruct (0 <=? z)%Z eqn:E0.
  - assert (B : forall k, (0 < k)%nat -> (z <? 2 ^ (8 * Z.of_nat k - 1))%Z = true ->
      reads (x <- get k ;; ret (signed k x)) (be k (Z.to_N z)) z).
    { intros k Hk Hz. pose proof (reads_signed k (Z.to_N z)) as R. rewrite signed_pos in R by lia. apply R.
      apply N2Z.inj_lt. rewrite N2Z.inj_pow, Z2N.id, nat_N_Z by lia.
      apply (Z.lt_le_trans _ (2 ^ (8 * Z.of_nat k - 1))); [lia|]. change (Z.of_N 256) with (2 ^ 8)%Z. rewrite <- Z.pow_mul_r by lia.
      apply Z.pow_le_mono_r; lia. }
    destruct (z <? 2 ^ 7)%Z eqn:E1; [|destruct (z <? 2 ^ 15)%Z eqn:E2; [|destruct (z <? 2 ^ 31)%Z eqn:E3]].
    + apply reads_lead; [lia|]. replace (Z.to_N z <? 0x80) with true by lia.
      replace z with (Z.of_N (Z.to_N z)) at 2 by lia. apply reads_ret.
    + apply reads_lead; [reflexivity|]. apply B; [lia|exact E2].
    + apply reads_lead; [reflexivity|]. apply B; [lia|exact E3].
    + apply reads_lead; [reflexivity|]. apply B; [lia|]. change (8 * Z.of_nat 8 - 1)%Z with 63%Z. lia.
  - assert (B : forall k, (0 < k)%nat -> (- 2 ^ (8 * Z.of_nat k - 1) <=? z)%Z = true ->
      reads (x <- get k ;; ret (signed k x)) (be k (unsigned k z)) z).
    { intros k Hk Hz. pose proof (reads_signed k (unsigned k z)) as R. rewrite signed_unsigned in R.
      - apply R. change 256 with (2 ^ 8). rewrite <- N.pow_mul_r. apply unsigned_bound.
      - exact Hk.
      - assert (0 < 2 ^ (8 * Z.of_nat k - 1))%Z by (apply Z.pow_pos_nonneg; lia). lia. }
    destruct (-32 <=? z)%Z eqn:E1; [|destruct (- 2 ^ 7 <=? z)%Z eqn:E2; [|destruct (- 2 ^ 15 <=? z)%Z eqn:E3; [|destruct (- 2 ^ 31 <=? z)%Z eqn:E4]]].
    + assert (EU : unsigned 1 z = Z.to_N (z + 256)).
      { unfold unsigned. f_equal. change (2 ^ (8 * Z.of_nat 1))%Z with 256%Z. symmetry. apply (Z.mod_unique z 256 (-1)); lia. }
      rewrite EU. apply reads_lead; [lia|]. replace (Z.to_N (z + 256) <? 0x80) with false by lia.
      replace (0xe0 <=? Z.to_N (z + 256)) with true by lia.
      replace z with (Z.of_N (Z.to_N (z + 256)) - 256)%Z at 2 by lia. apply reads_ret.
    + apply reads_lead; [reflexivity|]. apply B; [lia|exact E2].
    + apply reads_lead; [reflexivity|]. apply B; [lia|exact E3].
    + apply reads_lead; [reflexivity|]. apply B; [lia|exact E4].
    + apply reads_lead; [reflexivity|]. apply B; [lia|]. change (8 * Z.of_nat 8 - 1)%Z with 63%Z. lia.
Qed.
Lemma reads_int z : (- 2 ^ 63 <= z < 2 ^ 63)%Z -> reads r_int (w_int z) z.
Proof.
  intros H. unfold r_int. rewrite <- (app_nil_r (w_int z)). eapply reads_bind; [apply integer_int, H|].
  apply reads_check; [lia|]. apply reads_ret.
Qed.

Lemma reads_bool b : reads r_bool (w_bool b) b.
Proof. destruct b; apply reads_lead; try reflexivity; apply reads_ret. Qed.

Lemma len32_small {A} (l : list A) : N.of_nat (length l) < 2 ^ 32 -> len32 l = N.of_nat (length l).
Proof. intros H. apply N.mod_small, H. Qed.

Lemma reads_taken n w : n = N.of_nat (length w) -> reads (take (N.to_nat n)) w w.
Proof. intros ->. rewrite Nat2N.id. apply reads_take. Qed.

Lemma reads_str s : N.of_nat (String.length s) < 2 ^ 32 -> reads r_str (w_str s) s.
Proof.
  intros H. unfold w_str, r_str. set (b := list_byte_of_string s).
  assert (L : length b = String.length s) by (unfold b; clear; induction s as [|c s IH]; cbn; [reflexivity|f_equal; exact IH]).
  rewrite len32_small by (rewrite L; exact H). rewrite L. remember (N.of_nat (String.length s)) as n eqn:En.
  assert (T : reads (x <- take (N.to_nat n) ;; ret (string_of_list_byte x)) b s).
  { pose proof (reads_end (take (N.to_nat n)) string_of_list_byte b b) as R.
    replace (string_of_list_byte b) with s in R by (symmetry; apply string_of_list_byte_of_string). apply R. apply reads_taken. rewrite L. exact En. }
  destruct (n <? 32) eqn:E1; [|destruct (n <? 2 ^ 8) eqn:E2; [|destruct (n <? 2 ^ 16) eqn:E3]]; cbn [app].
  - apply reads_lead; [lia|]. replace ((0xa0 <=? 0xa0 + n) && (0xa0 + n <? 0xc0)) with true by lia.
    eapply (reads_bind _ _ [] b); [apply reads_ret|]. replace (0xa0 + n - 0xa0) with n by lia. exact T.
  - apply reads_lead; [reflexivity|]. eapply reads_bind; [|exact T]. apply reads_get. rewrite p1. lia.
  - apply reads_lead; [reflexivity|]. eapply reads_bind; [|exact T]. apply reads_get. rewrite p2. lia.
  - apply reads_lead; [reflexivity|]. eapply reads_bind; [|exact T]. apply reads_get. rewrite p4. exact H.
Qed.

Lemma reads_bin b : N.of_nat (length b) < 2 ^ 32 -> reads r_bin (w_bin b) b.
Proof.
  intros H. unfold w_bin, r_bin. rewrite len32_small by exact H. remember (N.of_nat (length b)) as n eqn:En.
  pose proof (reads_taken n b En) as T.
  destruct (n <? 2 ^ 8) eqn:E2; [|destruct (n <? 2 ^ 16) eqn:E3]; cbn [app].
  - apply reads_lead; [reflexivity|]. eapply reads_bind; [|exact T]. apply reads_get. rewrite p1. lia.
  - apply reads_lead; [reflexivity|]. eapply reads_bind; [|exact T]. apply reads_get. rewrite p2. lia.
  - apply reads_lead; [reflexivity|]. eapply reads_bind; [|exact T]. apply reads_get. rewrite p4. exact H.
Qed.

Lemma reads_arr n : n < 2 ^ 32 -> reads r_arr (w_arr n) n.
Proof.
  intros H. unfold w_arr, r_arr. destruct (n <? 16) eqn:E1; [|destruct (n <? 2 ^ 16) eqn:E2].
  - apply reads_lead; [lia|]. replace ((0x90 <=? 0x90 + n) && (0x90 + n <? 0xa0)) with true by lia.
    replace n with (0x90 + n - 0x90) at 2 by lia. apply reads_ret.
  - apply reads_lead; [reflexivity|]. apply reads_get. rewrite p2. lia.
  - apply reads_lead; [reflexivity|]. apply reads_get. rewrite p4. exact H.
Qed.
Lemma reads_map n : n < 2 ^ 32 -> reads r_map (w_map n) n.
Proof.
  intros H. unfold w_map, r_map. destruct (n <? 16) eqn:E1; [|destruct (n <? 2 ^ 16) eqn:E2].
  - apply reads_lead; [lia|]. replace ((0x80 <=? 0x80 + n) && (0x80 + n <? 0x90)) with true by lia.
    replace n with (0x80 + n - 0x80) at 2 by lia. apply reads_ret.
  - apply reads_lead; [reflexivity|]. apply reads_get. rewrite p2. lia.
  - apply reads_lead; [reflexivity|]. apply reads_get. rewrite p4. exact H.
Qed.
