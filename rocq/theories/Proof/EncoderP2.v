(** A call that saves something waits for no other. *)
From Verif.Lib Require Import Prelude ListAux.
From Verif.Model Require Import Encoder.
From Verif.Spec Require Import EncoderSpec.
From Verif.Proof Require Import LoaderP EncoderP.
Open Scope nat_scope.

Lemma eplay_app : forall l l' c, eplay c (l ++ l') = match eplay c l with Some c' => eplay c' l' | None => None end.
Proof. induction l as [|x l IH]; intros l' c; [reflexivity|]. cbn [app eplay]. destruct (estep c x); [apply IH|reflexivity]. Qed.
Lemma of_proper i x : of_save i x -> proper x.
Proof. destruct x as [| | | | | | |? []| | | |]; cbn; tauto. Qed.
Definition ends (i : nat) (c : scfg) : Prop :=
  exists l c' y ok, Forall (of_save i) l /\ eplay c l = Some c' /\ nth_error (s_calls c') i = Some y /\ has_ended y ok.
Lemma ends_step i c x c' : of_save i x -> estep c x = Some c' -> ends i c' -> ends i c.
Proof.
  intros Hx E (l & c2 & y & ok & Hl & El & Q). exists (x :: l), c2, y, ok. split; [constructor; assumption|]. split; [cbn [eplay]; rewrite E; exact El|exact Q].
Qed.
Lemma held_enc c i x a : einv c -> nth_error (s_calls c) i = Some x -> uses x = Some a -> exists e, nth_error (s_enc c) a = Some e.
Proof.
  intros HI Ex U. destruct (ei_own _ HI) as (_ & _ & O3 & _). destruct (O3 _ _ _ Ex U) as (H & _). apply nth_error_Some in H.
  destruct (nth_error (s_enc c) a) as [e|]; [exists e; reflexivity|congruence].
Qed.
Lemma in_len {A} (l : list A) i x : nth_error l i = Some x -> i < length l.
Proof. intro E. apply nth_error_Some. rewrite E. discriminate. Qed.

Lemma ends_close c i j a ok s : einv c -> nth_error (s_calls c) i = Some (mkC j (SClose a ok) s) -> ends i c.
Proof.
  intros HI Ex. destruct (held_enc _ _ _ _ HI Ex eq_refl) as (e & Ee). exists [X_close i]. cbn [eplay estep]. rewrite Ex. unfold close. rewrite Ee.
  eexists _, _, ok. split; [repeat constructor|]. split; [reflexivity|]. cbn [with_call with_enc s_calls]. split; [apply upd_at_same; exact (in_len _ _ _ Ex)|reflexivity].
Qed.
Lemma ends_set c i j a s : einv c -> nth_error (s_calls c) i = Some (mkC j (SSet a) s) -> ends i c.
Proof.
  intros HI Ex. assert (E : estep c (X_ret i true) = Some (with_call c i (mkC j (SClose a true) s))) by (cbn [estep]; rewrite Ex; reflexivity).
  apply (ends_step i c _ _ (eq_refl : of_save i (X_ret i true)) E). eapply ends_close; [apply (einv_step c (X_ret i true) _ HI Logic.I E)|].
  cbn [with_call s_calls]. apply upd_at_same. exact (in_len _ _ _ Ex).
Qed.
Lemma ends_enc : forall r c i j a s, einv c -> nth_error (s_calls c) i = Some (mkC j (SEnc a r) s) -> ends i c.
Proof.
  induction r as [|v r IH]; intros c i j a s HI Ex; destruct (held_enc _ _ _ _ HI Ex eq_refl) as (e & Ee).
  - assert (Q : exists c1, flush c a 0 = Some c1) by (unfold flush; rewrite Ee; destruct (e_to e); eexists; reflexivity).
    destruct Q as (c1 & Q). destruct (spill_inv _ _ _ _ _ _ _ _ HI Ex Q) as (HI1 & EC & e1 & Ee1 & _).
    assert (Hi : i < length (s_calls c1)) by (rewrite EC; exact (in_len _ _ _ Ex)). destruct j as [ps|ps].
    + assert (E : estep c (X_flush i 0) = Some (with_call c1 i (mkC (JBlob ps) (SSet a) (Some (e_arr e1, e_len e1))))) by (cbn [estep]; rewrite Ex, Q, Ee1; reflexivity).
      apply (ends_step i c _ _ (eq_refl : of_save i (X_flush i 0)) E). eapply ends_set; [apply (einv_step c (X_flush i 0) _ HI Logic.I E)|].
      cbn [with_call s_calls]. apply upd_at_same. exact Hi.
    + assert (E : estep c (X_flush i 0) = Some (with_call c1 i (mkC (JFile ps) (SClose a true) s))) by (cbn [estep]; rewrite Ex, Q, Ee1; reflexivity).
      apply (ends_step i c _ _ (eq_refl : of_save i (X_flush i 0)) E). eapply ends_close; [apply (einv_step c (X_flush i 0) _ HI Logic.I E)|].
      cbn [with_call s_calls]. apply upd_at_same. exact Hi.
  - assert (E : estep c (X_write i) = Some (with_call (with_enc c a (mkE (e_arr e) (e_len e) (e_to e) (e_pend e ++ v))) i (mkC j (SEnc a r) s))) by (cbn [estep]; rewrite Ex, Ee; reflexivity).
    apply (ends_step i c _ _ (eq_refl : of_save i (X_write i)) E). eapply IH; [apply (einv_step c (X_write i) _ HI Logic.I E)|].
    cbn [with_call with_enc s_calls]. apply upd_at_same. exact (in_len _ _ _ Ex).
Qed.
Lemma c84_ends c i x : encs proper c -> nth_error (s_calls c) i = Some x ->
  exists l c' y ok, Forall (of_save i) l /\ eplay c l = Some c' /\ nth_error (s_calls c') i = Some y /\ has_ended y ok.
Proof.
  intros H Ex. apply encs_inv in H. destruct x as [j [|a r|a|a ok|ok] s].
  - assert (E : exists c', estep c (X_take i None 0) = Some c' /\ exists a, nth_error (s_calls c') i = Some (mkC j (SEnc a (pieces j)) None)).
    { cbn [estep]. rewrite Ex. unfold take. cbn [pool_get]. unfold new_enc. cbn [s_enc]. rewrite nth_error_app2, Nat.sub_diag by lia. cbn [nth_error].
      eexists. split; [reflexivity|]. eexists. cbn [with_call with_enc s_calls]. apply upd_at_same. exact (in_len _ _ _ Ex). }
    destruct E as (c1 & E & a & Ea). apply (ends_step i c _ _ (eq_refl : of_save i (X_take i None 0)) E). eapply ends_enc; [apply (einv_step c (X_take i None 0) _ H Logic.I E)|exact Ea].
  - exact (ends_enc _ _ _ _ _ _ H Ex).
  - exact (ends_set _ _ _ _ _ H Ex).
  - exact (ends_close _ _ _ _ _ _ H Ex).
  - exists [], c, (mkC j (SEnd ok) s), ok. repeat split; [constructor|exact Ex].
Qed.
