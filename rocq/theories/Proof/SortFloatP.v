(** Order of the float keys. *)
From Coq Require Import ZArith Floats.SpecFloat.
From Verif.Lib Require Import Prelude.
From Verif.Model Require Import SortFloat.
Open Scope N_scope.

Notation C52 := 4503599627370496.
Notation C63 := 9223372036854775808.
Notation INF := 9218868437227405312.

(** ** bit operations *)
Lemma low_log b n : b < 2 ^ n -> b = 0 \/ N.log2 b < n.
Proof. intros H. destruct (N.eq_dec b 0); [auto|]. right. apply N.log2_lt_pow2; [lia|exact H]. Qed.
Lemma lnot_lo b n : b < 2 ^ n -> N.lxor b (2 ^ n - 1) = 2 ^ n - 1 - b.
Proof.
  intros H. replace (2 ^ n - 1) with (N.ones n) by (rewrite N.ones_equiv; lia). change (N.lxor b (N.ones n)) with (N.lnot b n).
  destruct (N.eq_dec b 0) as [->|Hb]; [rewrite N.lnot_0_l; lia|]. apply N.lnot_sub_low. apply N.log2_lt_pow2; [lia|exact H].
Qed.
Lemma bit63 a : a < C63 -> N.lxor a C63 = a + C63.
Proof.
  intros H. symmetry. apply N.add_nocarry_lxor. apply N.bits_inj_0. intros n. rewrite N.land_spec.
  change C63 with (2 ^ 63). destruct (N.eq_dec n 63) as [->|Hn]; [|rewrite N.pow2_bits_false by congruence; apply andb_false_r].
  rewrite (N.testbit_eqb a 63). rewrite N.div_small; [reflexivity|]. exact H.
Qed.
Lemma bit63' a : a < C63 -> N.lxor (a + C63) C63 = a.
Proof. intros H. rewrite <- bit63 by exact H. rewrite N.lxor_assoc, N.lxor_nilpotent, N.lxor_0_r. reflexivity. Qed.
Lemma sign_bit b : b < 2 * C63 -> N.testbit b 63 = (C63 <=? b).
Proof.
  intros H. rewrite N.testbit_eqb. change (2 ^ 63) with C63. destruct (N.leb_spec C63 b) as [L|L].
  - assert (E : b / C63 = 1) by (symmetry; apply N.div_unique with (b - C63); lia). rewrite E. reflexivity.
  - rewrite N.div_small by exact L. reflexivity.
Qed.

(** ** what a pattern means: sign and magnitude *)
Definition sgn (b : N) : bool := C63 <=? b.
Definition mag (b : N) : N := if sgn b then b - C63 else b.
Lemma mag_lt b : b < 2 * C63 -> mag b < C63.
Proof. unfold mag, sgn. destruct (N.leb_spec C63 b); lia. Qed.
Definition ex (a : N) : N := a / C52.
Definition fr (a : N) : N := a mod C52.
Lemma ex_fr a : a = C52 * ex a + fr a /\ fr a < C52.
Proof. unfold ex, fr. split; [apply N.div_mod; lia|apply N.mod_lt; lia]. Qed.
Definition mant (a : N) : positive := match (if ex a =? 0 then fr a else fr a + C52)%N with N0 => 1%positive | Npos p => p end.
Definition expo (a : N) : Z := if ex a =? 0 then (-1074)%Z else (Z.of_N (ex a) - 1075)%Z.

Lemma f64_cases b : b < 2 * C63 ->
  f64 b = if INF <? mag b then S754_nan
          else if mag b =? INF then S754_infinity (sgn b)
          else if mag b =? 0 then S754_zero (sgn b)
          else S754_finite (sgn b) (mant (mag b)) (expo (mag b)).
Proof.
  intros Hb. unfold f64. rewrite sign_bit by exact Hb. fold (sgn b).
  change (2 ^ 52) with C52. 
  pose proof (mag_lt b Hb) as Hm. destruct (ex_fr (mag b)) as (E & L).
  assert (Ee : (b / C52) mod 2048 = ex (mag b)).
  { unfold mag in *. destruct (sgn b) eqn:Es; unfold sgn in Es.
    - apply N.leb_le in Es. symmetry. apply N.mod_unique with 1; [|].
      + lia.
      + symmetry. apply N.div_unique with (fr (b - C63)); [exact L|]. lia.
    - apply N.leb_gt in Es. rewrite N.mod_small; [reflexivity|]. apply N.div_lt_upper_bound; lia. }
  assert (Em : b mod C52 = fr (mag b)).
  { unfold mag in *. destruct (sgn b) eqn:Es; unfold sgn in Es; [|reflexivity]. apply N.leb_le in Es.
    symmetry. apply N.mod_unique with (2048 + ex (b - C63)); [exact L|lia]. }
  rewrite Ee, Em. unfold mant, expo. destruct (N.ltb_spec INF (mag b)) as [H1|H1].
  - assert (ex (mag b) = 2047) by lia. rewrite H. destruct (N.eqb_spec (fr (mag b)) 0); [lia|reflexivity].
  - destruct (N.eqb_spec (mag b) INF) as [H2|H2].
    + assert (ex (mag b) = 2047 /\ fr (mag b) = 0) as (-> & ->) by lia. reflexivity.
    + destruct (N.eqb_spec (ex (mag b)) 2047); [lia|]. destruct (N.eqb_spec (mag b) 0) as [H3|H3].
      * assert (ex (mag b) = 0 /\ fr (mag b) = 0) as (-> & ->) by lia. reflexivity.
      * destruct (N.eqb_spec (ex (mag b)) 0) as [H4|H4].
        -- destruct (fr (mag b)); [lia|reflexivity].
        -- destruct (fr (mag b) + C52) eqn:Q; [lia|reflexivity].
Qed.
Lemma mant_val a : a <> 0 -> Npos (mant a) = if ex a =? 0 then fr a else fr a + C52.
Proof.
  intros H. destruct (ex_fr a) as (E & L). unfold mant. destruct (N.eqb_spec (ex a) 0).
  - destruct (fr a) eqn:Q; [lia|reflexivity].
  - destruct (fr a + C52) eqn:Q; [lia|reflexivity].
Qed.

Definition fcmp (a a' : N) : comparison :=
  match Z.compare (expo a) (expo a') with Eq => Pos.compare_cont Eq (mant a) (mant a') | Lt => Lt | Gt => Gt end.
Lemma fcmp_spec a a' : a <> 0 -> a' <> 0 -> fcmp a a' = (a ?= a').
Proof.
  intros Ha Ha'. destruct (ex_fr a) as (E & L). destruct (ex_fr a') as (E' & L').
  unfold fcmp. pose proof (mant_val a Ha) as M. pose proof (mant_val a' Ha') as M'. unfold expo.
  change (Pos.compare_cont Eq (mant a) (mant a')) with (Npos (mant a) ?= Npos (mant a')). rewrite M, M'. clear M M'.
  destruct (N.eqb_spec (ex a) 0) as [X|X], (N.eqb_spec (ex a') 0) as [X'|X'].
  - cbn. destruct (N.compare_spec (fr a) (fr a')), (N.compare_spec a a'); try reflexivity; lia.
  - destruct (Z.compare_spec (-1074) (Z.of_N (ex a') - 1075)); [| |lia].
    + destruct (N.compare_spec (fr a) (fr a' + C52)), (N.compare_spec a a'); try reflexivity; lia.
    + destruct (N.compare_spec a a'); try reflexivity; lia.
  - destruct (Z.compare_spec (Z.of_N (ex a) - 1075) (-1074)); [|lia|].
    + destruct (N.compare_spec (fr a + C52) (fr a')), (N.compare_spec a a'); try reflexivity; lia.
    + destruct (N.compare_spec a a'); try reflexivity; lia.
  - destruct (Z.compare_spec (Z.of_N (ex a) - 1075) (Z.of_N (ex a') - 1075)).
    + destruct (N.compare_spec (fr a + C52) (fr a' + C52)), (N.compare_spec a a'); try reflexivity; lia.
    + destruct (N.compare_spec a a'); try reflexivity; lia.
    + destruct (N.compare_spec a a'); try reflexivity; lia.
Qed.

(** ** the key *)
Lemma sortable_spec b : b < 2 * C63 ->
  sortable b = if INF <? mag b then 0 else if mag b =? 0 then C63 else if sgn b then C63 - 1 - mag b else C63 + mag b.
Proof.
  intros Hb. unfold sortable. rewrite f64_cases by exact Hb. pose proof (mag_lt b Hb) as Hm.
  change 0x8000000000000000 with C63. change (2 ^ 63) with C63.
  destruct (N.ltb_spec INF (mag b)) as [H1|H1]; [reflexivity|].
  assert (Fin : forall x, (if sgn b then N.lxor b (2 ^ 64 - 1) else x) = (if sgn b then C63 - 1 - mag b else x)).
  { intros x. unfold mag in *. destruct (sgn b) eqn:Es; [|reflexivity]. unfold sgn in Es. apply N.leb_le in Es.
    rewrite lnot_lo by (change (2 ^ 64) with (2 * C63); lia). change (2 ^ 64) with (2 * C63). lia. }
  assert (Pos : sgn b = false -> N.lxor b C63 = C63 + mag b).
  { intros Es. unfold mag in *. rewrite Es in *. rewrite bit63 by exact Hm. lia. }
  destruct (N.eqb_spec (mag b) INF) as [H2|H2].
  - destruct (N.eqb_spec (mag b) 0); [lia|]. unfold SFeqb, SFltb. cbn [SFcompare].
    specialize (Fin (C63 + mag b)). destruct (sgn b); cbn [negb]; [exact Fin|apply Pos; reflexivity].
  - destruct (N.eqb_spec (mag b) 0) as [H3|H3]; [reflexivity|].
    unfold SFeqb, SFltb. cbn [SFcompare]. specialize (Fin (C63 + mag b)).
    rewrite Z.compare_refl. change (Pos.compare_cont Eq (mant (mag b)) (mant (mag b))) with (Pos.compare (mant (mag b)) (mant (mag b))).
    rewrite Pos.compare_refl. destruct (sgn b); cbn [negb]; [exact Fin|apply Pos; reflexivity].
Qed.

Lemma c40_order a b c : a < 2 * C63 -> b < 2 * C63 -> SFcompare (f64 a) (f64 b) = Some c -> (sortable a ?= sortable b) = c.
Proof.
  intros Ha Hb. rewrite !sortable_spec, !f64_cases by assumption. pose proof (mag_lt a Ha) as Ma. pose proof (mag_lt b Hb) as Mb.
  destruct (N.ltb_spec INF (mag a)) as [A1|A1]; [discriminate|].
  destruct (N.ltb_spec INF (mag b)) as [B1|B1]; [destruct (mag a =? INF), (mag a =? 0); discriminate|].
  assert (T : forall x y, (x < y -> (x ?= y) = Lt) /\ (x > y -> (x ?= y) = Gt) /\ (x = y -> (x ?= y) = Eq)).
  { intros x y. destruct (N.compare_spec x y); repeat split; auto; lia. }
  destruct (N.eqb_spec (mag a) INF) as [A2|A2], (N.eqb_spec (mag b) INF) as [B2|B2];
    (destruct (N.eqb_spec (mag a) 0) as [A3|A3]; try lia); (destruct (N.eqb_spec (mag b) 0) as [B3|B3]; try lia);
    destruct (sgn a), (sgn b); cbn [SFcompare]; intros E; injection E as <-;
    try (apply T; lia);
    match goal with |- _ = match Z.compare _ _ with _ => _ end => idtac | _ => idtac end.
  - fold (fcmp (mag a) (mag b)).
    assert (Ef : match (expo (mag a) ?= expo (mag b))%Z with Eq => CompOpp (Pos.compare_cont Eq (mant (mag a)) (mant (mag b))) | Lt => Gt | Gt => Lt end
                 = CompOpp (fcmp (mag a) (mag b))) by (unfold fcmp; destruct (expo (mag a) ?= expo (mag b))%Z; reflexivity).
    rewrite Ef, fcmp_spec by assumption. destruct (N.compare_spec (mag a) (mag b)); cbn [CompOpp]; apply T; lia.
  - change (match (expo (mag a) ?= expo (mag b))%Z with Eq => Pos.compare_cont Eq (mant (mag a)) (mant (mag b)) | Lt => Lt | Gt => Gt end)
      with (fcmp (mag a) (mag b)). rewrite fcmp_spec by assumption. destruct (N.compare_spec (mag a) (mag b)); apply T; lia.
Qed.
Lemma c40_range b : b < 2 * C63 -> sortable b < 2 * C63.
Proof.
  intros Hb. rewrite sortable_spec by exact Hb. pose proof (mag_lt b Hb). destruct (INF <? mag b), (mag b =? 0), (sgn b); lia.
Qed.
Lemma c40_nan b : b < 2 * C63 -> (f64 b = S754_nan <-> sortable b = 0).
Proof.
  intros Hb. rewrite sortable_spec, f64_cases by exact Hb. pose proof (mag_lt b Hb).
  destruct (N.ltb_spec INF (mag b)); [split; reflexivity|]. destruct (N.eqb_spec (mag b) INF) as [E|E].
  - destruct (N.eqb_spec (mag b) 0); [lia|]. split; [discriminate|]. destruct (sgn b); lia.
  - destruct (N.eqb_spec (mag b) 0); [split; discriminate|]. split; [discriminate|]. destruct (sgn b); lia.
Qed.
Lemma shift63 k : N.shiftr k 63 = k / C63.
Proof. rewrite N.shiftr_div_pow2. reflexivity. Qed.
Lemma c40_back b : b < 2 * C63 -> f64 b <> S754_nan -> reverse (sortable b) = if mag b =? 0 then 0 else b.
Proof.
  intros Hb Hn. assert (Hk : sortable b <> 0) by (intros C; apply Hn, c40_nan; assumption).
  unfold reverse. destruct (N.eqb_spec (sortable b) 0); [contradiction|]. rewrite shift63.
  revert Hk. rewrite sortable_spec by exact Hb. pose proof (mag_lt b Hb) as Hm.
  destruct (INF <? mag b); [congruence|]. change (2 ^ 63) with C63. intros Hk.
  destruct (N.eqb_spec (mag b) 0) as [Z|Z]; [reflexivity|]. destruct (sgn b) eqn:Es; unfold mag in *; rewrite Es in *.
  - unfold sgn in Es. apply N.leb_le in Es. rewrite N.div_small by lia. cbn [N.eqb].
    change (C63 - 1) with (2 ^ 63 - 1). rewrite lnot_lo by (change (2 ^ 63) with C63; lia). change (2 ^ 63) with C63.
    replace (C63 - 1 - (C63 - 1 - (b - C63))) with (b - C63) by lia. rewrite bit63 by lia. lia.
  - assert (E : (C63 + b) / C63 = 1) by (symmetry; apply N.div_unique with b; lia). rewrite E. cbn [N.eqb].
    rewrite N.add_comm. apply bit63'. exact Hm.
Qed.
Lemma c40_back_nan b : b < 2 * C63 -> f64 b = S754_nan -> reverse (sortable b) = 0x7FF8000000000001 /\ f64 0x7FF8000000000001 = S754_nan.
Proof. intros Hb H. apply c40_nan in H; [|exact Hb]. rewrite H. split; reflexivity. Qed.
Lemma c40_zero b : b < 2 * C63 -> (mag b = 0 <-> exists s, f64 b = S754_zero s).
Proof.
  intros Hb. rewrite f64_cases by exact Hb. destruct (N.ltb_spec INF (mag b)); [split; [lia|intros (s & C); discriminate]|].
  destruct (N.eqb_spec (mag b) INF); [split; [lia|intros (s & C); discriminate]|].
  destruct (N.eqb_spec (mag b) 0); [split; eauto|split; [contradiction|intros (s & C); discriminate]].
Qed.

(** ** as numbers: every finite float64 is a multiple of 2^-1074 *)
Definition scaled (f : spec_float) : option Z :=
  match f with
  | S754_zero _ => Some 0%Z
  | S754_finite s m e => Some ((if s then -1 else 1) * (Zpos m * 2 ^ (e + 1074)))%Z
  | _ => None
  end.
Definition mval (a : N) : Z := (Zpos (mant a) * 2 ^ (expo a + 1074))%Z.
Lemma mval_lt a a' : a <> 0 -> a < a' -> (mval a < mval a')%Z.
Proof.
  intros Ha Hlt. unfold mval, expo. destruct (ex_fr a) as (E & L). destruct (ex_fr a') as (E' & L').
  pose proof (mant_val a Ha) as M. pose proof (mant_val a' ltac:(lia)) as M'.
  destruct (N.eqb_spec (ex a) 0) as [X|X], (N.eqb_spec (ex a') 0) as [X'|X'].
  - change (2 ^ (-1074 + 1074))%Z with 1%Z. lia.
  - change (2 ^ (-1074 + 1074))%Z with 1%Z. replace (Z.of_N (ex a') - 1075 + 1074)%Z with (Z.of_N (ex a' - 1)) by lia.
    assert (0 < 2 ^ Z.of_N (ex a' - 1))%Z by (apply Z.pow_pos_nonneg; lia). nia.
  - lia.
  - replace (Z.of_N (ex a') - 1075 + 1074)%Z with (Z.of_N (ex a' - ex a) + Z.of_N (ex a - 1))%Z by lia.
    replace (Z.of_N (ex a) - 1075 + 1074)%Z with (Z.of_N (ex a - 1)) by lia.
    assert (P : (0 < 2 ^ Z.of_N (ex a - 1))%Z) by (apply Z.pow_pos_nonneg; lia).
    rewrite Z.pow_add_r by lia. rewrite Z.mul_assoc. apply Z.mul_lt_mono_pos_r; [exact P|].
    destruct (N.eq_dec (ex a) (ex a')) as [Q|Q].
    + replace (ex a' - ex a) with 0 by lia. change (2 ^ Z.of_N 0)%Z with 1%Z. lia.
    + assert (2 <= 2 ^ Z.of_N (ex a' - ex a))%Z. { change 2%Z with (2 ^ 1)%Z at 1. apply Z.pow_le_mono_r; lia. }
      nia.
Qed.
Lemma some_inj {A} (x y : A) : Some x = Some y -> x = y.
Proof. congruence. Qed.
Lemma c40_value a b x y : a < 2 * C63 -> b < 2 * C63 -> scaled (f64 a) = Some x -> scaled (f64 b) = Some y ->
  (sortable a ?= sortable b) = (x ?= y)%Z.
Proof.
  intros Ha Hb. rewrite !sortable_spec, !f64_cases by assumption. pose proof (mag_lt a Ha) as Ma. pose proof (mag_lt b Hb) as Mb.
  destruct (N.ltb_spec INF (mag a)) as [A1|A1]; [discriminate|]. destruct (N.ltb_spec INF (mag b)) as [B1|B1]; [discriminate|].
  destruct (N.eqb_spec (mag a) INF) as [A2|A2]; [discriminate|]. destruct (N.eqb_spec (mag b) INF) as [B2|B2]; [discriminate|].
  assert (P : forall m e, (-1074 <= e)%Z -> (0 < Zpos m * 2 ^ (e + 1074))%Z).
  { intros m e He. assert (0 < 2 ^ (e + 1074))%Z by (apply Z.pow_pos_nonneg; lia). nia. }
  assert (Q : forall a, (-1074 <= expo a)%Z) by (intros z; unfold expo; destruct (N.eqb_spec (ex z) 0); lia).
  assert (MP : forall z, (0 < mval z)%Z) by (intros z; apply P, Q).
  assert (T : forall x y, (x < y -> (x ?= y) = Lt) /\ (x > y -> (x ?= y) = Gt) /\ (x = y -> (x ?= y) = Eq)).
  { intros u v. destruct (N.compare_spec u v); repeat split; auto; lia. }
  assert (SC : forall s m e, scaled (S754_finite s m e) = Some ((if s then -1 else 1) * (Zpos m * 2 ^ (e + 1074)))%Z) by reflexivity.
  assert (SZ : forall s, scaled (S754_zero s) = Some 0%Z) by reflexivity.
  destruct (N.eqb_spec (mag a) 0) as [A3|A3]; destruct (N.eqb_spec (mag b) 0) as [B3|B3]; 
    rewrite ?SZ, ?SC; fold (mval (mag a)) (mval (mag b)); intros E1 E2; apply some_inj in E1; apply some_inj in E2; subst x y.
  - reflexivity.
  - pose proof (MP (mag b)). destruct (sgn b).
    + destruct (Z.compare_spec 0 (-1 * mval (mag b))); try lia. apply T. lia.
    + destruct (Z.compare_spec 0 (1 * mval (mag b))); try lia. apply T. lia.
  - pose proof (MP (mag a)). destruct (sgn a).
    + destruct (Z.compare_spec (-1 * mval (mag a)) 0); try lia. apply T. lia.
    + destruct (Z.compare_spec (1 * mval (mag a)) 0); try lia. apply T. lia.
  - pose proof (MP (mag a)). pose proof (MP (mag b)).
    pose proof (mval_lt (mag a) (mag b) A3) as L1. pose proof (mval_lt (mag b) (mag a) B3) as L2.
    assert (L3 : mag a = mag b -> mval (mag a) = mval (mag b)) by congruence.
    destruct (sgn a), (sgn b).
    + destruct (Z.compare_spec (-1 * mval (mag a)) (-1 * mval (mag b))); apply T; lia.
    + destruct (Z.compare_spec (-1 * mval (mag a)) (1 * mval (mag b))); try lia; apply T; lia.
    + destruct (Z.compare_spec (1 * mval (mag a)) (-1 * mval (mag b))); try lia; apply T; lia.
    + destruct (Z.compare_spec (1 * mval (mag a)) (1 * mval (mag b))); apply T; lia.
Qed.
