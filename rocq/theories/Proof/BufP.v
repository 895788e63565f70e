From Coq Require Import Strings.String Strings.Byte.
From Verif.Lib Require Import Prelude ListAux.
From Verif.Model Require Import KV MaxSize Lazy LazyBuf.
From Verif.Spec Require Import LazySpec BufSpec.

Notation cnt := (count_occ Nat.eq_dec).
Definition one (a x : nat) : nat := if Nat.eq_dec a x then 1%nat else 0%nat.
Lemma cnt_cons a l x : cnt (a :: l) x = (one a x + cnt l x)%nat.
Proof. unfold one. cbn. destruct (Nat.eq_dec a x); lia. Qed.
Lemma one_same a : one a a = 1%nat. Proof. unfold one. destruct (Nat.eq_dec a a); congruence. Qed.
Lemma one_other a x : a <> x -> one a x = 0%nat. Proof. unfold one. destruct (Nat.eq_dec a x); congruence. Qed.
Lemma cnt_in l x : In x l <-> (1 <= cnt l x)%nat.
Proof. rewrite (count_occ_In Nat.eq_dec). lia. Qed.
Lemma cnt_del : forall l n a x, nth_error l n = Some a -> cnt l x = (one a x + cnt (del_nth n l) x)%nat.
Proof.
  induction l as [|b l IH]; intros [|n] a x H; cbn [nth_error del_nth] in *; try discriminate.
  - injection H as <-. apply cnt_cons.
  - rewrite !cnt_cons, (IH n a x H). lia.
Qed.
Lemma in_del {A} : forall (l : list A) n y, In y (del_nth n l) -> In y l.
Proof. induction l as [|b l IH]; intros [|n] y H; cbn in *; auto. destruct H; eauto. Qed.
Lemma map_del {A B} (f : A -> B) : forall l n, map f (del_nth n l) = del_nth n (map f l).
Proof. induction l as [|b l IH]; intros [|n]; cbn; [reflexivity..|]. rewrite IH. reflexivity. Qed.

Lemma at_same {A} (f : nat -> A) n v : at_nat f n v n = v.
Proof. unfold at_nat. rewrite Nat.eqb_refl. reflexivity. Qed.
Lemma at_other {A} (f : nat -> A) n v m : n <> m -> at_nat f n v m = f m.
Proof. unfold at_nat. intros H. destruct (Nat.eqb_spec n m); [congruence|reflexivity]. Qed.

Lemma pooled_ext po po' : (forall i, (i < 11)%nat -> po i = po' i) -> pooled po = pooled po'.
Proof. intros H. unfold pooled. cbn [seq flat_map]. rewrite !H by lia. reflexivity. Qed.
Lemma pooled_at po i l x : (i <= 10)%nat -> (cnt (pooled (at_nat po i l)) x + cnt (po i) x = cnt (pooled po) x + cnt l x)%nat.
Proof.
  intros H. unfold pooled. cbn [seq flat_map]. rewrite !count_occ_app.
  do 11 (destruct i as [|i]; [cbn [at_nat Nat.eqb]; lia|]). lia.
Qed.
Lemma in_pooled po i a : (i <= 10)%nat -> In a (po i) -> In a (pooled po).
Proof. intros H I. apply in_flat_map. exists i. split; [apply in_seq; lia|exact I]. Qed.

(** ** Pools *)
Lemma fits_new i : (i <= 10)%nat -> fits i (new_cap i).
Proof.
  intros H. split; [exact H|]. unfold new_cap. destruct (Nat.eqb_spec i 10) as [->|]; [cbn; lia|reflexivity].
Qed.
Lemma size_pow k x : 2 ^ k < x -> x <= 2 ^ (k + 1) -> N.size (x - 1) = k + 1.
Proof.
  intros L U. assert (2 ^ k <> 0) by (apply N.pow_nonzero; lia). rewrite N.size_log2 by lia.
  assert (E : N.log2 (x - 1) = k); [|rewrite E; lia].
  apply N.log2_unique; [lia|]. split; [lia|]. rewrite <- N.add_1_r. lia.
Qed.
Lemma get_pool_le s : (get_pool s <= 10)%nat.
Proof.
  unfold get_pool. destruct (N.leb_spec s (2 ^ 10)); [lia|]. destruct (N.leb_spec (2 ^ 20) s); [lia|].
  assert (N.size (s - 1) <= 20); [|lia]. rewrite N.size_log2 by lia.
  assert (N.log2 (s - 1) < 20) by (apply N.log2_lt_pow2; lia). lia.
Qed.
(** a buffer of that pool holds [s] bytes, and is not much larger unless it is of the last pool *)
Lemma get_pool_cap s cap : fits (get_pool s) cap ->
  1024 <= cap /\ (s <= 2 ^ 20 -> s <= cap) /\ (1024 < s <= 2 ^ 19 -> cap < 2 * s).
Proof.
  intros (_ & H). unfold get_pool in H. destruct (N.leb_spec s (2 ^ 10)) as [A|A].
  - cbn in H. subst cap. split; [lia|]. split; intros; lia.
  - destruct (N.leb_spec (2 ^ 20) s) as [B|B].
    + cbn [Nat.eqb] in H. split; [lia|]. split; intros; lia.
    + set (k := N.log2 (s - 1)).
      assert (K1 : 2 ^ k <= s - 1 < 2 ^ N.succ k) by (apply N.log2_spec; lia).
      assert (K2 : 10 <= k) by (apply N.log2_le_pow2; lia).
      assert (K3 : k < 20) by (apply N.log2_lt_pow2; lia).
      assert (E : N.size (s - 1) = N.succ k) by (apply N.size_log2; lia). rewrite E in H.
      rewrite N.pow_succ_r' in K1.
      destruct (Nat.eqb_spec (N.to_nat (N.succ k - 10)) 10) as [Q|Q].
      * assert (Ek : k = 19) by lia. rewrite Ek in K1. split; [lia|]. split; intros; lia.
      * rewrite N2Nat.id in H. replace (10 + (N.succ k - 10)) with (N.succ k) in H by lia. rewrite N.pow_succ_r' in H.
        assert (2 ^ 10 <= 2 ^ k) by (apply N.pow_le_mono_r; lia). split; [lia|]. split; intros; lia.
Qed.
Lemma put_pool_fits i cap : fits i cap -> put_pool cap = i /\ 1024 <= cap.
Proof.
  intros (L & H). unfold put_pool. destruct (Nat.eqb_spec i 10) as [->|N10].
  - destruct (N.leb_spec (2 ^ 20) cap); [|lia]. split; [reflexivity|lia].
  - subst cap. do 10 (destruct i as [|i]; [vm_compute; split; [reflexivity|discriminate]|]). lia.
Qed.

(** ** Memory *)
Section mem.
Context (own : nat -> nat).
Definition good (m : memory) : Prop :=
  let '(mm, cp, po, fr) := m in
  (forall x, cnt (pooled po) x + own x <= 1)%nat /\
  (forall x, (1 <= cnt (pooled po) x + own x)%nat -> (x < fr)%nat) /\
  (forall i a, In a (po i) -> fits i (cp a)) /\
  (forall x, (1 <= own x)%nat -> exists i, fits i (cp x)).
End mem.
Lemma good_ext own own' m : (forall x, own x = own' x) -> good own m -> good own' m.
Proof.
  destruct m as [[[mm cp] po] fr]. intros E (G1 & G2 & G3 & G4). split; [|split; [|split]]; try assumption; intros x; rewrite <- E; auto.
Qed.

Lemma chunk_ok own m s p a m' : good own m -> get_chunk m s p = Some (a, m') ->
  good (fun x => one a x + own x)%nat m' /\ own a = 0%nat /\ (forall x, (1 <= own x)%nat -> m_mem m' x = m_mem m x) /\
  fits (get_pool s) (m_cap m' a).
Proof.
  destruct m as [[[mm cp] po] fr]. intros (G1 & G2 & G3 & G4) H. pose proof (get_pool_le s) as Le. unfold get_chunk in H.
  set (i := get_pool s) in *. destruct p as [|n].
  - injection H as <- <-. assert (O : own fr = 0%nat) by (specialize (G2 fr); lia).
    assert (P : cnt (pooled po) fr = 0%nat) by (specialize (G2 fr); lia).
    split; [|split; [exact O|split]].
    + split; [|split; [|split]].
      * intros x. destruct (Nat.eq_dec fr x) as [<-|Ne]; [rewrite one_same; lia|rewrite one_other by exact Ne; apply G1].
      * intros x Hx. destruct (Nat.eq_dec fr x) as [<-|Ne]; [lia|]. rewrite one_other in Hx by exact Ne. specialize (G2 x). lia.
      * intros j b Hb. rewrite at_other; [apply G3, Hb|]. intros <-. destruct (Nat.le_gt_cases j 10) as [Lj|Lj].
        -- pose proof (in_pooled po j fr Lj Hb) as Q. apply cnt_in in Q. lia.
        -- apply G3 in Hb. destruct Hb as (Hb & _). lia.
      * intros x Hx. destruct (Nat.eq_dec fr x) as [<-|Ne]; [exists i; rewrite at_same; apply fits_new, Le|].
        rewrite one_other in Hx by exact Ne. rewrite at_other by exact Ne. apply G4. lia.
    + intros x Hx. cbn. apply at_other. intros <-. lia.
    + cbn. rewrite at_same. apply fits_new, Le.
  - destruct (nth_error (po i) n) as [b|] eqn:E; [|discriminate]. injection H as <- <-.
    pose proof (nth_error_In _ _ E) as I. pose proof (in_pooled po i b Le I) as Ip. apply cnt_in in Ip.
    assert (O : own b = 0%nat) by (specialize (G1 b); lia).
    assert (PC : forall x, (cnt (pooled (at_nat po i (del_nth n (po i)))) x + one b x = cnt (pooled po) x)%nat).
    { intros x. pose proof (pooled_at po i (del_nth n (po i)) x Le) as Q. rewrite (cnt_del _ _ _ x E) in Q. lia. }
    split; [|split; [exact O|split]].
    + split; [|split; [|split]].
      * intros x. specialize (PC x). specialize (G1 x). lia.
      * intros x Hx. apply G2. specialize (PC x). lia.
      * intros j y Hy. unfold at_nat in Hy. destruct (Nat.eqb_spec i j) as [<-|Nj]; [apply in_del in Hy|]; apply G3, Hy.
      * intros x Hx. destruct (Nat.eq_dec b x) as [<-|Ne]; [exists i; apply G3, I|]. rewrite one_other in Hx by exact Ne. apply G4. lia.
    + intros x Hx. cbn. apply at_other. intros <-. lia.
    + cbn. apply G3, I.
Qed.

Lemma append_ok own m s a0 v g a m' : good (fun x => one a0 x + own x)%nat m -> own a0 = 0%nat -> fits (get_pool s) (m_cap m a0) ->
  s = N.of_nat (length v) -> append_to a0 v g m = (a, m') ->
  good (fun x => one a x + own x)%nat m' /\ own a = 0%nat /\ (forall x, (1 <= own x)%nat -> m_mem m' x = m_mem m x) /\
  m_mem m' a = v /\ (s <= 2 ^ 20 -> a = a0).
Proof.
  destruct m as [[[mm cp] po] fr]. intros (G1 & G2 & G3 & G4) O F Es H. cbn in F. unfold append_to in H.
  destruct (get_pool_cap _ _ F) as (C1 & C2 & _). rewrite <- Es in H.
  destruct (N.leb_spec s (cp a0)) as [L|L].
  - injection H as <- <-. split; [|split; [exact O|split; [|split]]].
    + split; [|split; [|split]]; assumption.
    + intros x Hx. cbn. apply at_other. intros <-. lia.
    + cbn. apply at_same.
    + reflexivity.
  - injection H as <- <-. assert (Sz : 2 ^ 20 < s) by (destruct (N.le_gt_cases s (2 ^ 20)) as [Q|Q]; [specialize (C2 Q); lia|exact Q]).
    assert (Of : own fr = 0%nat) by (specialize (G2 fr); lia). assert (Pf : cnt (pooled po) fr = 0%nat) by (specialize (G2 fr); lia).
    split; [|split; [exact Of|split; [|split]]].
    + split; [|split; [|split]].
      * intros x. destruct (Nat.eq_dec fr x) as [<-|Ne]; [rewrite one_same; lia|rewrite one_other by exact Ne]. specialize (G1 x). lia.
      * intros x Hx. destruct (Nat.eq_dec fr x) as [<-|Ne]; [lia|]. rewrite one_other in Hx by exact Ne. specialize (G2 x). lia.
      * intros j b Hb. rewrite at_other; [apply G3, Hb|]. intros <-. destruct (Nat.le_gt_cases j 10) as [Lj|Lj].
        -- pose proof (in_pooled po j fr Lj Hb) as Q. apply cnt_in in Q. lia.
        -- apply G3 in Hb. destruct Hb as (Hb & _). lia.
      * intros x Hx. destruct (Nat.eq_dec fr x) as [<-|Ne].
        -- exists 10%nat. rewrite at_same. split; [lia|]. cbn [Nat.eqb]. lia.
        -- rewrite one_other in Hx by exact Ne. rewrite at_other by exact Ne. apply G4. lia.
    + intros x Hx. cbn. apply at_other. intros <-. lia.
    + cbn. apply at_same.
    + lia.
Qed.

Lemma copy_ok own m v p g a m' : good own m -> copy_of m v p g = Some (a, m') ->
  good (fun x => one a x + own x)%nat m' /\ own a = 0%nat /\ (forall x, (1 <= own x)%nat -> m_mem m' x = m_mem m x) /\ m_mem m' a = v.
Proof.
  intros G H. unfold copy_of in H. destruct (get_chunk m (N.of_nat (length v)) p) as [[a0 m0]|] eqn:E; [|discriminate].
  destruct (chunk_ok _ _ _ _ _ _ G E) as (G0 & O0 & M0 & F0). injection H as H.
  destruct (append_ok own m0 _ a0 v g a m' G0 O0 F0 eq_refl H) as (G1 & O1 & M1 & V1 & _).
  split; [exact G1|]. split; [exact O1|]. split; [|exact V1]. intros x Hx. rewrite M1, M0 by exact Hx. reflexivity.
Qed.

Lemma put_ok own m a : good (fun x => one a x + own x)%nat m -> good own (put_chunk (Some a) m) /\ m_mem (put_chunk (Some a) m) = m_mem m.
Proof.
  destruct m as [[[mm cp] po] fr]. intros (G1 & G2 & G3 & G4). unfold put_chunk.
  destruct (G4 a) as (i & F); [rewrite one_same; lia|]. destruct (put_pool_fits i _ F) as (Ei & C).
  destruct (N.eqb_spec (cp a) 0); [lia|]. rewrite Ei. split; [|reflexivity]. pose proof (proj1 F) as Le.
  assert (PC : forall x, (cnt (pooled (at_nat po i (a :: po i))) x = one a x + cnt (pooled po) x)%nat).
  { intros x. pose proof (pooled_at po i (a :: po i) x Le) as Q. rewrite cnt_cons in Q. lia. }
  split; [|split; [|split]].
  - intros x. rewrite PC. specialize (G1 x). lia.
  - intros x Hx. rewrite PC in Hx. apply G2. lia.
  - intros j b Hb. unfold at_nat in Hb. destruct (Nat.eqb_spec i j) as [<-|Nj]; [destruct Hb as [<-|Hb]|]; [exact F|apply G3, Hb|apply G3, Hb].
  - intros x Hx. apply G4. lia.
Qed.
