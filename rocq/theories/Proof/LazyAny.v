(** The delayed-write store with any keys, also such whose joined names are equal. *)
From Coq Require Import Strings.String Strings.Ascii Strings.Byte.
From Verif.Lib Require Import Prelude ListAux.
From Verif.Model Require Import KV MaxSize Lazy.
From Verif.Spec Require Import LazySpec.
From Verif.Proof Require Import KVP MaxSizeP MaxSizeRun LazyP LazyOne.
From Verif.Proof Require LocksP.
Open Scope nat_scope.

(** the key was written, and the value was written under the same joined name *)
Definition named (tr : list levent) (k : skey) (v : option bytes) : Prop :=
  (exists v', In (LSet k v') tr) /\ exists k', same_name k' k /\ In (LSet k' v) tr.
Record AInv (s : kv) (tr : list levent) (c : lcfg) : Prop := {
  a_item : forall e, In e (l_q c) -> named tr (i_key e) (i_b e) /\ i_id e < l_next c;
  a_idx : forall h id, l_idx c h = Some id -> id < l_next c /\ forall e, In e (l_q c) -> i_id e = id -> lazy_key (i_key e) = h;
  a_sav : forall j e w, nth_error (l_sav c) j = Some (Some (e, w)) -> named tr (i_key e) (i_b e);
  a_kv : forall k, l_kv c k = s k \/ named tr k (l_kv c k)
}.
Lemma named_mono tr x k v : named tr k v -> named (tr ++ x) k v.
Proof. intros ((v' & A) & k' & B & C). split; [exists v'|exists k'; split; [exact B|]]; apply in_or_app; auto. Qed.
Lemma named_set tr k v : named (tr ++ [LSet k v]) k v.
Proof. split; [exists v|exists k; split; [reflexivity|]]; apply in_or_app; right; left; reflexivity. Qed.

Lemma a_step mf K s tr c e c' : AInv s tr c -> lstep mf K c e c' -> AInv s (tr ++ match e with Some x => [x] | None => [] end) c'.
Proof.
  intros [I1 I2 I3 I4] S.
  assert (M1 : forall x, (forall e, In e (l_q c) -> named (tr ++ x) (i_key e) (i_b e) /\ i_id e < l_next c)).
  { intros x y Hy. destruct (I1 y Hy). split; [apply named_mono|]; assumption. }
  assert (M3 : forall x j e w, nth_error (l_sav c) j = Some (Some (e, w)) -> named (tr ++ x) (i_key e) (i_b e)).
  { intros x j y w Hy. apply named_mono. eapply I3; eauto. }
  assert (M4 : forall x k, l_kv c k = s k \/ named (tr ++ x) k (l_kv c k)).
  { intros x k. destruct (I4 k); [auto|right; apply named_mono; assumption]. }
  inversion S; subst; clear S.
  - unfold do_set.
    assert (Add : AInv s (tr ++ [LSet k v]) (mkL (l_kv c) (l_q c ++ [mkI (l_next c) k v false])
                 (set_at (l_idx c) (lazy_key k) (Some (l_next c))) (S (l_next c)) (l_hand c) (l_sav c) (l_ask c) (l_nask c))).
    { constructor; cbn; auto.
      - intros e He. apply in_app_or in He as [He|[<-|[]]]; [destruct (M1 [LSet k v] e He); split; [assumption|lia]|].
        cbn. split; [apply named_set|lia].
      - intros h id Hid. unfold set_at in Hid. destruct (string_dec (lazy_key k) h) as [<-|NE].
        + injection Hid as <-. split; [lia|]. intros e He Ee. apply in_app_or in He as [He|[<-|[]]]; [|reflexivity].
          destruct (I1 e He). lia.
        + destruct (I2 h id Hid) as (A & B). split; [lia|]. intros e He Ee. apply in_app_or in He as [He|[<-|[]]]; [auto|].
          cbn in Ee. lia.
      - intros j e w. apply M3. }
    destruct (pending c k) as [x|] eqn:P; [destruct (i_saving x); [exact Add|]|exact Add].
    unfold pending in P. destruct (l_idx c (lazy_key k)) as [id|] eqn:Ei; [|discriminate]. apply find_item_spec in P as (Px & Pid).
    destruct (I2 _ _ Ei) as (A & B). constructor; cbn; auto.
    + intros e He. unfold put_b in He. apply in_map_iff in He as (y & Ey & Hy). destruct (M1 [LSet k v] y Hy) as (N1 & N2).
      destruct (Nat.eqb (i_id y) (i_id x)) eqn:Q; subst e; cbn; [|auto]. split; [|exact N2].
      apply Nat.eqb_eq in Q. split; [apply N1|]. exists k. split; [|apply in_or_app; right; left; reflexivity].
      symmetry. apply B; [exact Hy|congruence].
    + intros h i Hi. destruct (I2 h i Hi) as (A' & B'). split; [exact A'|]. intros e He Ee. unfold put_b in He.
      apply in_map_iff in He as (y & Ey & Hy). destruct (Nat.eqb (i_id y) (i_id x)); subst e; cbn in *; apply B'; assumption.
    + intros j e w. apply M3.
  - constructor; auto. intros j y w. apply M3.
  - constructor; cbn; auto. intros j e w. apply M3.
  - constructor; cbn; auto. intros j e w. apply M3.
  - rewrite app_nil_r. constructor; cbn; auto.
    + intros y Hy. unfold mark in Hy. apply in_map_iff in Hy as (z & Ez & Hz). destruct (I1 z Hz).
      destruct (Nat.eqb (i_id z) (i_id e0)); subst y; cbn; auto.
    + intros h i Hi. destruct (I2 h i Hi) as (A & B). split; [exact A|]. intros y Hy Ey. unfold mark in Hy.
      apply in_map_iff in Hy as (z & Ez & Hz). destruct (Nat.eqb (i_id z) (i_id e0)); subst y; cbn in *; apply B; assumption.
  - rewrite app_nil_r. constructor; cbn; auto. intros i y w Hy. apply find_item_spec in H0 as (Hin & _).
    destruct (Nat.eq_dec j i) as [->|NE].
    + rewrite (LocksP.nth_upd_same _ _ _ _ H1) in Hy. injection Hy as <- <-. apply I1, Hin.
    + rewrite LocksP.nth_upd_other in Hy by exact NE. eapply I3; eauto.
  - rewrite app_nil_r. constructor; cbn; auto.
    + intros i y w Hy. destruct (Nat.eq_dec j i) as [->|NE].
      * rewrite (LocksP.nth_upd_same _ _ _ _ H) in Hy. injection Hy as <- <-. eapply I3; eauto.
      * rewrite LocksP.nth_upd_other in Hy by exact NE. eapply I3; eauto.
    + intros k. destruct (takes f); [|apply I4]. unfold kv_put. destruct (skey_dec (i_key e0) k) as [<-|]; [|apply I4].
      right. eapply I3; eauto.
  - rewrite app_nil_r. constructor; cbn; auto.
    + intros y Hy. apply drop_in in Hy as (Hy & _). auto.
    + intros h i Hi.
      assert (Hi' : l_idx c h = Some i).
      { destruct (match l_idx c (lazy_key (i_key e0)) with Some id => Nat.eqb id (i_id e0) | None => false end); [|exact Hi].
        unfold set_at in Hi. destruct (string_dec (lazy_key (i_key e0)) h); [discriminate|exact Hi]. }
      destruct (I2 h i Hi') as (A & B). split; [exact A|]. intros y Hy. apply drop_in in Hy as (Hy & _). apply B, Hy.
    + intros i y w Hy. destruct (Nat.eq_dec j i) as [->|NE].
      * rewrite (LocksP.nth_upd_same _ _ _ _ H) in Hy. discriminate.
      * rewrite LocksP.nth_upd_other in Hy by exact NE. eapply I3; eauto.
Qed.
Lemma a_exec n mf K s tr c : lexec n mf K s tr c -> AInv s tr c.
Proof.
  induction 1 as [|tr c e c' H IH S]; [|eapply a_step; eauto].
  constructor; cbn; try contradiction; try discriminate; auto.
  intros j e w Hj. apply nth_error_In in Hj. apply repeat_spec in Hj. discriminate.
Qed.

Lemma c37_named_hit n mf K s tr c t1 k v t2 : lexec n mf K s tr c -> tr = t1 ++ LHit k v :: t2 ->
  (exists v', In (LSet k v') t1) /\ exists k', same_name k' k /\ In (LSet k' v) t1.
Proof.
  intros E Et. destruct (exec_split _ _ _ _ _ _ E _ _ _ Et) as (c1 & c2 & E1 & S). pose proof (a_exec _ _ _ _ _ _ E1) as A.
  inversion S; subst. unfold pending in *. destruct (l_idx c2 (lazy_key (i_key e))) as [id|]; [|discriminate].
  match goal with H : find_item _ _ = Some _ |- _ => apply find_item_spec in H as (Hin & _) end.
  apply (a_item _ _ _ A e Hin).
Qed.
Lemma c37_named_store n mf K s tr c k : lexec n mf K s tr c ->
  l_kv c k = s k \/ ((exists v', In (LSet k v') tr) /\ exists k', same_name k' k /\ In (LSet k' (l_kv c k)) tr).
Proof. intros E. exact (a_kv _ _ _ (a_exec _ _ _ _ _ _ E) k). Qed.
