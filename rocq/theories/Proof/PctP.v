(** GetPercentile. *)
From Coq Require Import Strings.String.
From Verif.Lib Require Import Prelude ListAux ListLemmas SortLemmas Perm.
From Verif.Model Require Import Element Elements Segment List.
From Verif.Spec Require Import RankSpec QuerySpec.
From Verif.Proof Require Import ElementP ElementsP SegP InvDef QueryP LookupP.
Open Scope N_scope.

Lemma pct_find_spec : forall l n i prev want, cnt_ok l ->
  match pct_find i prev (top_offsets_from n l) want with
  | None => (forall o, prev = Some o -> (o <= want)%nat) ->
            (prev = None -> n = 0%nat) -> 
            (forall a s b, l = a ++ s :: b -> (n + length (elems_of a) <= want)%nat \/ (a = [] /\ prev = None /\ (want < n)%nat))
  | Some (si, so) => (prev = Some so /\ si = (i - 1)%nat /\ (want < n)%nat /\ l <> []) \/
       exists a s b, l = a ++ s :: b /\ si = (i + length a)%nat /\ so = (n + length (elems_of a))%nat /\
         (n + length (elems_of a) <= want < n + length (elems_of (a ++ [s])))%nat
  end.
Proof.
  induction l as [|s r IH]; intros n i prev want Hc; cbn [top_offsets_from pct_find].
  { intros _ _ a s b E. destruct a; discriminate. }
  inversion Hc as [|? ? Hs Hr]; subst.
  destruct (Nat.ltb_spec want n) as [L|L].
  - destruct prev as [p|].
    + left. repeat split; auto. discriminate.
    + intros _ Hn. specialize (Hn eq_refl). lia.
  - specialize (IH (n + sg_n s)%nat (S i) (Some n) want Hr).
    destruct (pct_find (S i) (Some n) (top_offsets_from (n + sg_n s) r) want) as [[si so]|].
    + right. destruct IH as [(E1 & E2 & E3 & E4)|(a & t & b & E1 & E2 & E3 & E4)].
      * inv E1. exists [], s, r. cbn. rewrite app_nil_r. rewrite <- Hs. repeat split; try lia.
      * exists (s :: a), t, b. cbn [app]. rewrite !elems_of_cons, !app_length. cbn [length].
        subst r. split; [reflexivity|]. lia.
    + intros Hp Hn. specialize (IH ltac:(intros o Ho; inv Ho; exact L) ltac:(discriminate)).
      intros a t b E. left. destruct a as [|y a]; cbn in E; inv E; [cbn; lia|].
      rewrite elems_of_cons, app_length. destruct (IH a t b eq_refl) as [H|(_ & H & _)]; [lia|discriminate].
Qed.

Lemma top_offsets_last l n s : cnt_ok l -> last (top_offsets_from n (l ++ [s])) 0%nat = (n + length (elems_of l))%nat.
Proof.
  revert n. induction l as [|y r IH]; intros n Hc; [cbn; lia|].
  inversion Hc as [|? ? Hs Hr]; subst. cbn [app top_offsets_from].
  rewrite elems_of_cons, app_length.
  rewrite Nat.add_assoc, <- Hs, <- (IH (n + sg_n y)%nat Hr).
  destruct (r ++ [s]) eqn:E; [destruct r; discriminate|]. cbn [top_offsets_from last].
  destruct l; reflexivity.
Qed.
Lemma top_offsets_length l n : length (top_offsets_from n l) = length l.
Proof. revert n. induction l; cbn; auto. Qed.

Lemma element_index_spec l a s b eo radius : l = a ++ s :: b -> distinct_ids (elems_of l) ->
  sg_elems s <> [] ->
  let k := Nat.min eo (length (sg_elems s) - 1) in
  exists x r, nth_error (elems_of l) (length (elems_of a) + k) = Some x /\
    get_element_index l (length a) eo (length (elems_of a)) radius = Done (Some r) /\
    calc_bottom (length (elems_of l)) r = ranked_at (elems_of l) radius (length (elems_of a) + k) x.
Proof.
  intros El Hd Hne k. unfold get_element_index.
  assert (Hn : nth_error l (length a) = Some s) by (rewrite El, nth_error_app2, Nat.sub_diag by lia; reflexivity).
  rewrite Hn.
  replace (if Nat.leb (length (sg_elems s)) eo then (length (sg_elems s) - 1)%nat else eo) with k.
  2:{ unfold k. destruct (Nat.leb_spec (length (sg_elems s)) eo); lia. }
  assert (Hk : (k < length (sg_elems s))%nat).
  { unfold k. destruct (sg_elems s); [congruence|cbn; lia]. }
  destruct (nth_error (sg_elems s) k) as [x|] eqn:Ex; [|apply nth_error_None in Ex; lia].
  rewrite El in Hd |- *. destruct (find_ranked_spec a s b k x radius Hd Ex) as (H1 & r & H2 & H3).
  exists x, r. rewrite H2. auto.
Qed.

Lemma element_index_panic l a s b eo off radius : l = a ++ s :: b -> sg_elems s = [] ->
  get_element_index l (length a) eo off radius = Panic.
Proof.
  intros El Hne. unfold get_element_index. rewrite El, nth_error_app2, Nat.sub_diag by lia. cbn [nth_error].
  rewrite Hne. cbn. destruct eo; reflexivity.
Qed.

Definition last_seg_empty (l : lst) : bool :=
  match sg_elems (last (ss_segs (l_scores l)) max_segment) with [] => true | _ => false end.

Lemma pct_at_spec P l want radius : Qok P l ->
  ((want < length (contents l))%nat -> exists x, nth_error (contents l) want = Some x /\
     pct_at l want radius = Done (Some (ranked_at (contents l) radius want x))) /\
  ((length (contents l) <= want)%nat -> last_seg_empty l = true -> pct_at l want radius = Panic) /\
  ((length (contents l) <= want)%nat -> last_seg_empty l = false -> exists x,
     nth_error (contents l) (length (contents l) - 1) = Some x /\
     pct_at l want radius = Done (Some (ranked_at (contents l) radius (length (contents l) - 1) x))).
Proof.
  intros HI. destruct (q_core _ _ HI) as (Q & HC). pose proof (c_s _ _ _ _ HC) as HS.
  pose proof (score_ok_distinct _ _ HS) as Hd. pose proof (q_cnt _ _ HI) as Hc.
  unfold pct_at, last_seg_empty, contents in *. set (L := ss_segs (l_scores l)) in *. cbn zeta.
  rewrite count_elems by exact Hc.
  pose proof (pct_find_spec L 0 0 None want Hc) as HP. unfold top_offsets in *.
  destruct (exists_last (tile_nonempty _ (so_tile _ _ HS))) as (a0 & t & EL). fold L in EL.
  assert (Ela : last L max_segment = t) by (rewrite EL; apply last_last).
  assert (Hlen : length (elems_of L) = (length (elems_of a0) + length (sg_elems t))%nat).
  { rewrite EL, elems_of_app, elems_of_cons, !app_length. cbn. lia. }
  assert (Hoffs : top_offsets_from 0 L <> []) by (rewrite EL; destruct a0; discriminate).
  rewrite Ela.
  destruct (pct_find 0 None (top_offsets_from 0 L) want) as [[si so]|].
  - destruct HP as [(E & _)|(a & s & b & E1 & E2 & E3 & E4)]; [discriminate|].
    cbn [Nat.add] in E2, E3, E4. subst si so.
    rewrite elems_of_app, elems_of_cons, app_length, app_length in E4. cbn [elems_of map concat length] in E4.
    assert (Hne : sg_elems s <> []) by (intros C; rewrite C in E4; cbn in E4; lia).
    destruct (element_index_spec L a s b (want - length (elems_of a)) radius E1 Hd Hne) as (x & r & H1 & H2 & H3).
    assert (Hk : (length (elems_of a) + Nat.min (want - length (elems_of a)) (length (sg_elems s) - 1))%nat = want).
    { change (length (@nil element)) with 0%nat in E4. cbn in E4. lia. }
    rewrite Hk in *. rewrite H2, H3.
    assert (Hlt : (want < length (elems_of L))%nat) by (apply nth_error_Some; congruence).
    repeat split; try (intros; lia). intros _. exists x. auto.
  - specialize (HP ltac:(discriminate) ltac:(reflexivity)).
    destruct (HP a0 t [] EL) as [HP'|(_ & _ & HP')]; [|lia]. cbn [Nat.add] in HP'.
    destruct (top_offsets_from 0 L) as [|o offs] eqn:Eo; [congruence|]. rewrite <- Eo.
    assert (Hlast : last (top_offsets_from 0 L) 0%nat = length (elems_of a0)).
    { rewrite EL, top_offsets_last; [reflexivity|]. rewrite EL in Hc. apply Forall_app in Hc. tauto. }
    rewrite top_offsets_length, !Hlast.
    replace (length L - 1)%nat with (length a0) by (rewrite EL, app_length; cbn; lia). cbn [Nat.add].
    destruct (sg_elems t) as [|y ys] eqn:Et.
    + rewrite (element_index_panic L a0 t [] _ _ _ EL Et). cbn [length] in Hlen.
      split; [intros; lia|]. split; [reflexivity|]. discriminate.
    + assert (Hne : sg_elems t <> []) by congruence.
      destruct (element_index_spec L a0 t [] (want - length (elems_of a0)) radius EL Hd Hne) as (x & r & H1 & H2 & H3).
      rewrite H2, H3. rewrite Et in *. cbn [length] in *.
      split; [|split].
      * intros Hw. exists x. replace want with (length (elems_of a0) + Nat.min (want - length (elems_of a0)) (S (length ys) - 1))%nat at 1 3 by lia.
        auto.
      * discriminate.
      * intros Hw _. exists x.
        replace (length (elems_of L) - 1)%nat with (length (elems_of a0) + Nat.min (want - length (elems_of a0)) (S (length ys) - 1))%nat by lia.
        auto.
Qed.

(** rounding *)
Lemma round64_bounds x q sh : round64 x = (q, sh) ->
  x - x / 2 ^ 64 <= q * 2 ^ sh <= x + x / 2 ^ 64.
Proof.
  unfold round64. destruct (N.leb_spec (N.size x) 64) as [L|L].
  - intros E. inv E. rewrite N.pow_0_r. lia.
  - set (s := N.size x - 64). set (r := x mod 2 ^ s). set (h := 2 ^ (s - 1)).
    assert (Hx0 : x <> 0) by (intros ->; cbn in L; lia).
    assert (Hs : 0 < s) by (unfold s; lia).
    assert (Hsz : 2 ^ (N.size x - 1) <= x).
    { rewrite N.size_log2 in * by exact Hx0. replace (N.succ (N.log2 x) - 1) with (N.log2 x) by lia.
      apply N.log2_spec. lia. }
    assert (E2 : 2 ^ s = 2 * h).
    { unfold h. rewrite <- N.pow_succ_r'. f_equal. lia. }
    assert (Hh : h <= x / 2 ^ 64).
    { apply N.div_le_lower_bound; [discriminate|]. etransitivity; [|exact Hsz].
      unfold h. rewrite <- N.pow_add_r. apply N.pow_le_mono_r; [discriminate|]. unfold s. lia. }
    assert (Hd : x = 2 ^ s * (x / 2 ^ s) + r).
    { apply N.div_mod. apply N.pow_nonzero. discriminate. }
    assert (Hr : r < 2 ^ s) by (apply N.mod_lt, N.pow_nonzero; discriminate).
    set (q0 := x / 2 ^ s) in *. generalize (x / 2 ^ 64) Hh. intros d Hd'.
    destruct ((h <? r) || (r =? h) && N.odd q0) eqn:E; intros Eq; injection Eq as <- <-.
    + assert (h <= r) by lia. rewrite N.mul_add_distr_r, N.mul_1_l, (N.mul_comm q0).
      clearbody q0 r h. generalize dependent (2 ^ s). clear - H Hd'. intros p. generalize (p * q0). intros; lia.
    + assert (r <= h) by (destruct (N.ltb_spec h r); [discriminate|lia]). rewrite (N.mul_comm q0).
      clearbody q0 r h. generalize dependent (2 ^ s). clear - H Hd'. intros p. generalize (p * q0). intros; lia.
Qed.

(** [m / 2^k] is a float64 in [0,1): the largest one is 1 - 2^-53 *)
Lemma want_off_lt total m k : 0 < total -> m * 2 ^ 53 <= (2 ^ 53 - 1) * 2 ^ k -> want_off total m k < total.
Proof.
  intros Ht Hm. unfold want_off. destruct (round64 (total * m)) as [q sh] eqn:E.
  apply round64_bounds in E as (_ & E).
  assert (Hk : 0 < 2 ^ k) by (apply N.neq_0_lt_0, N.pow_nonzero; discriminate).
  apply N.div_lt_upper_bound; [lia|]. eapply N.le_lt_trans; [exact E|].
  set (K := 2 ^ k) in *. set (x := total * m) in *.
  assert (Hx : x * 2 ^ 53 <= total * ((2 ^ 53 - 1) * K)).
  { unfold x. rewrite <- N.mul_assoc. apply N.mul_le_mono_l. exact Hm. }
  assert (Hd : x / 2 ^ 64 * 2 ^ 64 <= x) by (rewrite N.mul_comm; apply N.mul_div_le; discriminate).
  set (d := x / 2 ^ 64) in *. set (T := K * total) in *.
  assert (HT : 0 < T) by (unfold T; apply N.mul_pos_pos; assumption).
  assert (Hx' : x * 2 ^ 53 <= (2 ^ 53 - 1) * T).
  { unfold T. rewrite N.mul_assoc, (N.mul_comm _ total). exact Hx. }
  clearbody d x T. change (2 ^ 53) with 9007199254740992 in *. change (2 ^ 64) with 18446744073709551616 in *. lia.
Qed.

(** within one part in 2^64 of the exact product *)
Lemma want_off_close total m k : let x := total * m in
  (x - x / 2 ^ 64) / 2 ^ k <= want_off total m k <= (x + x / 2 ^ 64) / 2 ^ k.
Proof.
  intros x. unfold want_off. destruct (round64 (total * m)) as [q sh] eqn:E.
  apply round64_bounds in E as (E1 & E2). fold x in E1, E2.
  split; apply N.div_le_mono; auto; apply N.pow_nonzero; discriminate.
Qed.
Lemma want_off_exact total m k : N.size (total * m) <= 64 -> want_off total m k = total * m / 2 ^ k.
Proof.
  intros H. unfold want_off, round64. destruct (N.leb_spec (N.size (total * m)) 64); [|lia].
  rewrite N.pow_0_r, N.mul_1_r. reflexivity.
Qed.
Lemma want_off_one total k : want_off total (2 ^ k) k = total \/ 2 ^ 64 <= total.
Proof.
  destruct (N.leb_spec (2 ^ 64) total) as [|L]; [auto|]. left.
  unfold want_off, round64. assert (Hk : 2 ^ k <> 0) by (apply N.pow_nonzero; discriminate).
  destruct (N.leb_spec (N.size (total * 2 ^ k)) 64) as [Hs|Hs].
  { rewrite N.pow_0_r, N.mul_1_r. apply N.div_mul. exact Hk. }
  destruct (N.eq_dec total 0) as [->|Ht]; [cbn in Hs; lia|].
  assert (Hz : total * 2 ^ k <> 0) by (apply N.neq_mul_0; auto).
  assert (Hl : N.log2 total < 64) by (apply N.log2_lt_pow2; lia).
  rewrite N.size_log2 in * by exact Hz. rewrite N.log2_mul_pow2 in * by lia.
  set (sh := N.succ (k + N.log2 total) - 64) in *.
  assert (Hsh : sh <= k) by (unfold sh; lia).
  assert (E : total * 2 ^ k = (total * 2 ^ (k - sh)) * 2 ^ sh).
  { rewrite <- N.mul_assoc, <- N.pow_add_r. do 2 f_equal. lia. }
  assert (Hp : 2 ^ sh <> 0) by (apply N.pow_nonzero; discriminate).
  set (y := total * 2 ^ k) in *.
  assert (Em : y mod 2 ^ sh = 0) by (rewrite E; apply N.mod_mul; exact Hp).
  assert (Ed : y / 2 ^ sh = total * 2 ^ (k - sh)) by (rewrite E; apply N.div_mul; exact Hp).
  rewrite Em, Ed.
  assert (Hhp : 2 ^ (sh - 1) <> 0) by (apply N.pow_nonzero; discriminate).
  destruct (N.ltb_spec (2 ^ (sh - 1)) 0); [lia|]. destruct (N.eqb_spec 0 (2 ^ (sh - 1))); [lia|]. cbn [orb andb].
  rewrite <- E. unfold y. apply N.div_mul. exact Hk.
Qed.
