(** Lemmas about ReleaseSegments. *)
From Verif.Lib Require Import Prelude ListAux.
From Verif.Model Require Import Release.
From Verif.Spec Require Import ReleaseSpec.
Open Scope nat_scope.

Section Sum.
  Context {A : Type}.
  Fixpoint sumf (f : A -> nat) (l : list A) : nat := match l with [] => 0 | x :: l => f x + sumf f l end.
  Lemma sumf_app f l m : sumf f (l ++ m) = sumf f l + sumf f m.
  Proof. induction l as [|x l IH]; simpl; lia. Qed.
  Lemma sumf_upd f x : forall l i y, nth_error l i = Some y -> sumf f (upd_nth i (fun _ => x) l) + f y = sumf f l + f x.
  Proof.
    induction l as [|a l IH]; intros [|i] y H; simpl in *; try discriminate H.
    - injection H as ->. lia.
    - specialize (IH i y H). lia.
  Qed.
  Lemma sumf_ge f : forall l i y, nth_error l i = Some y -> f y <= sumf f l.
  Proof.
    induction l as [|a l IH]; intros [|i] y H; simpl in *; try discriminate H.
    - injection H as ->. lia.
    - specialize (IH i y H). lia.
  Qed.
  Lemma sumf_two f : forall l i j y z, i <> j -> nth_error l i = Some y -> nth_error l j = Some z -> f y + f z <= sumf f l.
  Proof.
    induction l as [|a l IH]; intros [|i] [|j] y z NE H K; simpl in *; try discriminate; try lia.
    - injection H as ->. pose proof (sumf_ge f l j z K). lia.
    - injection K as ->. pose proof (sumf_ge f l i y H). lia.
    - assert (i <> j) as NE2 by lia. specialize (IH i j y z NE2 H K). lia.
  Qed.
  Lemma sumf_pos f : forall l, 0 < sumf f l -> exists i y, nth_error l i = Some y /\ 0 < f y.
  Proof.
    induction l as [|a l IH]; simpl; [lia|]. intros H. destruct (f a) as [|n] eqn:E.
    - destruct IH as (i & y & P & Q); [lia|]. exists (S i), y. split; assumption.
    - exists 0, a. split; [reflexivity|lia].
  Qed.
  Lemma at_upd (x : A) : forall l i j, nth_error (upd_nth i (fun _ => x) l) j = if i =? j then match nth_error l j with Some _ => Some x | None => None end else nth_error l j.
  Proof.
    induction l as [|a l IH]; intros [|i] [|j]; simpl; try reflexivity; [destruct (i =? j); reflexivity|]. apply IH.
  Qed.
  Lemma at_app (l : list A) x j y : nth_error (l ++ [x]) j = Some y -> nth_error l j = Some y \/ y = x.
  Proof.
    intros J. destruct (Nat.lt_ge_cases j (length l)) as [L|L].
    - rewrite nth_error_app1 in J by exact L. left; exact J.
    - rewrite nth_error_app2 in J by exact L. right. destruct (j - length l) as [|[|q]]; cbn [nth_error] in J; try discriminate J. congruence.
  Qed.
End Sum.

Definition uL (u : vkind * vpc) : nat :=
  match snd u with URead | UGot | UUp | UUpP | UUpW | UWin _ => 1 | UWr | UWrP | UWrW => match fst u with VReset => 0 | _ => 1 end | _ => 0 end.
Definition uU (u : vkind * vpc) : nat := match snd u with UStart | UEnd => 0 | _ => if v_upd (fst u) then 1 else 0 end.
Definition uR (u : vkind * vpc) : nat := match snd u with UGot | UUse _ => 1 | _ => 0 end.
Definition uP (u : vkind * vpc) : nat := match snd u with UUpP | UWrP => 1 | _ => 0 end.
Definition uW (u : vkind * vpc) : nat := match snd u with UUpW | UWrW | UUseW _ => 1 | _ => 0 end.
Definition gL (r : rel) : nat := match r_g r with GFlag1 => 1 | GSegs | GPend | GFlag2 => if r_canc r then 0 else 1 | _ => 0 end.
Definition gP (r : rel) : nat := match r_g r with GPend => 1 | _ => 0 end.
Definition gW (r : rel) : nat := match r_g r with GFlag2 => 1 | _ => 0 end.
Definition kfit (u : vkind * vpc) : Prop :=
  match fst u with
  | VRead _ => match snd u with UWr | UWrP | UWrW | UUseW _ => False | _ => True end
  | VWrite => match snd u with UStart | ULoad | UWr | UWrP | UWrW | UUseW _ | UEnd => True | _ => False end
  | VReset => match snd u with UStart | UWr | UWrP | UWrW | UUseW _ | UEnd => True | _ => False end
  end.
Definition rok (r : rel) : Prop :=
  r_gots r = false /\ (r_canc r = false -> r_gotl r = match r_g r with GSegs | GPend | GFlag2 => true | _ => false end) /\
  (r_canc r = true -> r_m r = MRet) /\ (r_done r = true -> r_g r = GEnd) /\ (r_g r = GEnd -> r_done r = true \/ r_m r = MRet).
Definition b2n (b : bool) : nat := if b then 1 else 0.
Record vinv (c : vcfg) : Prop := mkVI {
  vi_load : b2n (v_load c) = sumf uL (v_users c) + sumf gL (v_rels c);
  vi_upd : b2n (v_lockupd c) = sumf uU (v_users c);
  vi_read : v_read c = sumf uR (v_users c);
  vi_pend : match v_w c with WPend => 1 | _ => 0 end = sumf uP (v_users c) + sumf gP (v_rels c);
  vi_held : match v_w c with WHeld => 1 | _ => 0 end = sumf uW (v_users c) + sumf gW (v_rels c);
  vi_excl : v_w c = WHeld -> v_read c = 0;
  vi_fault : v_fault c = false;
  vi_kfit : forall i u, nth_error (v_users c) i = Some u -> kfit u;
  vi_rok : forall j r, nth_error (v_rels c) j = Some r -> rok r }.

Ltac vred := cbn [v_mem v_next v_load v_lockupd v_read v_w v_fault v_users v_rels un_load un_upd un_read un_write set_mem new_mem u_at r_at un_updif b2n negb orb option_map fst snd] in *.

Lemma vinv_start : vinv vstart.
Proof.
  constructor; try reflexivity.
  - intros i u H. destruct i; discriminate H.
  - intros i u H. destruct i; discriminate H.
Qed.
Lemma kfit_upd c i u : (forall i u, nth_error (v_users c) i = Some u -> kfit u) -> kfit u -> forall j w, nth_error (upd_nth i (fun _ => u) (v_users c)) j = Some w -> kfit w.
Proof.
  intros H K j w. rewrite at_upd. destruct (i =? j); [|apply H]. destruct (nth_error (v_users c) j); [|discriminate]. intros E; injection E as <-. exact K.
Qed.
Lemma rok_upd c j r : (forall j r, nth_error (v_rels c) j = Some r -> rok r) -> rok r -> forall i w, nth_error (upd_nth j (fun _ => r) (v_rels c)) i = Some w -> rok w.
Proof.
  intros H K i w. rewrite at_upd. destruct (j =? i); [|apply H]. destruct (nth_error (v_rels c) i); [|discriminate]. intros E; injection E as <-. exact K.
Qed.

Ltac counts Q := match goal with |- context [upd_nth _ (fun _ => ?u) _] =>
  let A := fresh in pose proof (Q u) as A; cbn [uL uU uR uP uW fst snd v_upd] in A; destruct A as (? & ? & ? & ? & ?) end.
Ltac settle := vred; repeat match goal with H : _ = false |- _ => first [rewrite H in *|fail] end.
Lemma vinv_u c i k p a c' : vinv c -> nth_error (v_users c) i = Some (k, p) -> ustep c i k p a = Some c' -> vinv c'.
Proof.
  intros [HL HU HR HP HW HX HF HK HO] E S.
  pose proof (HK _ _ E) as KF. unfold kfit in KF. cbn [fst snd] in KF.
  pose proof (fun u K => kfit_upd c i u HK K) as KU.
  assert (Q : forall u, 
    sumf uL (upd_nth i (fun _ => u) (v_users c)) + uL (k, p) = sumf uL (v_users c) + uL u /\
    sumf uU (upd_nth i (fun _ => u) (v_users c)) + uU (k, p) = sumf uU (v_users c) + uU u /\
    sumf uR (upd_nth i (fun _ => u) (v_users c)) + uR (k, p) = sumf uR (v_users c) + uR u /\
    sumf uP (upd_nth i (fun _ => u) (v_users c)) + uP (k, p) = sumf uP (v_users c) + uP u /\
    sumf uW (upd_nth i (fun _ => u) (v_users c)) + uW (k, p) = sumf uW (v_users c) + uW u) by (intros u; repeat split; apply sumf_upd; exact E).
  pose proof (sumf_ge uL _ _ _ E) as GL. pose proof (sumf_ge uU _ _ _ E) as GU. pose proof (sumf_ge uR _ _ _ E) as GR.
  pose proof (sumf_ge uP _ _ _ E) as GP. pose proof (sumf_ge uW _ _ _ E) as GW.
  destruct c as [mem next ld up rd w ft us rs]. vred. rewrite HF in *. clear HF E HK.
  unfold ustep, lk_load, lk_upd, lk_read, lk_pend, lk_write in S.
  destruct a, p, k as [ub| |]; try discriminate S; try destruct KF; try destruct ub; cbn [v_upd] in S; vred;
    cbn [uL uU uR uP uW fst snd v_upd] in GL, GU, GR, GP, GW;
    destruct ld, up, w; vred; try discriminate S; try (exfalso; lia);
    match type of S with context [match mem with _ => _ end] => destruct mem as [g0|]; vred; try discriminate S | _ => idtac end;
    match type of S with context [if rd =? 0 then _ else _] => destruct (rd =? 0) eqn:RZ; vred; try discriminate S | _ => idtac end;
    injection S as <-; vred;
    try first [apply Nat.eqb_eq in RZ|apply Nat.eqb_neq in RZ];
    (constructor; vred; [counts Q; lia|counts Q; lia|counts Q; lia|counts Q; lia|counts Q; lia
      |intros HH; first [discriminate HH|specialize (HX eq_refl); lia|lia]
      |first [reflexivity|rewrite (proj2 (Nat.eqb_neq rd 0)) by lia; reflexivity]
      |apply KU; exact Logic.I|exact HO]).
Qed.

Lemma vinv_g c j r c' : vinv c -> nth_error (v_rels c) j = Some r -> gstep c j r = Some c' -> vinv c'.
Proof.
  intros [HL HU HR HP HW HX HF HK HO] E S.
  pose proof (HO _ _ E) as RO. unfold rok in RO.
  pose proof (fun u K => rok_upd c j u HO K) as KU.
  assert (Q : forall u, 
    sumf gL (upd_nth j (fun _ => u) (v_rels c)) + gL r = sumf gL (v_rels c) + gL u /\
    sumf gP (upd_nth j (fun _ => u) (v_rels c)) + gP r = sumf gP (v_rels c) + gP u /\
    sumf gW (upd_nth j (fun _ => u) (v_rels c)) + gW r = sumf gW (v_rels c) + gW u) by (intros u; repeat split; apply sumf_upd; exact E).
  pose proof (sumf_ge gL _ _ _ E) as GL. pose proof (sumf_ge gP _ _ _ E) as GP. pose proof (sumf_ge gW _ _ _ E) as GW.
  destruct c as [mem next ld up rd w ft us rs]. destruct r as [g m gl gs ca dn]. vred. rewrite HF in *. clear HF E HO.
  cbn [r_g r_m r_gotl r_gots r_canc r_done] in *. destruct RO as (R1 & R2 & R3 & R4 & R5).
  unfold gstep, lk_load, lk_upd, lk_read, lk_pend, lk_write in S. cbn [r_g r_m r_gotl r_gots r_canc r_done] in S.
  destruct g; try discriminate S; destruct ca; vred;
    cbn [gL gP gW r_g r_canc] in GL, GP, GW;
    destruct ld, w; vred; try discriminate S; try (exfalso; lia);
    match type of S with context [if rd =? 0 then _ else _] => destruct (rd =? 0) eqn:RZ; vred; try discriminate S | _ => idtac end;
    injection S as <-; vred;
    try first [apply Nat.eqb_eq in RZ|apply Nat.eqb_neq in RZ];
    (constructor; vred;
      [match goal with |- context [upd_nth _ (fun _ => ?u) _] => destruct (Q u) as (? & ? & ?); cbn [gL gP gW r_g r_canc] in *; lia end
      |exact HU|exact HR
      |match goal with |- context [upd_nth _ (fun _ => ?u) _] => destruct (Q u) as (? & ? & ?); cbn [gL gP gW r_g r_canc] in *; lia end
      |match goal with |- context [upd_nth _ (fun _ => ?u) _] => destruct (Q u) as (? & ? & ?); cbn [gL gP gW r_g r_canc] in *; lia end
      |intros HH; first [discriminate HH|specialize (HX eq_refl); lia|lia]
      |reflexivity|exact HK
      |apply KU; unfold rok; cbn [r_g r_m r_gotl r_gots r_canc r_done] in *;
       repeat split; intros; try congruence; try reflexivity; try (right; apply R3; reflexivity); try (left; reflexivity);
       try (rewrite R4 in *; congruence); try (specialize (R4 H); discriminate R4); try (specialize (R2 eq_refl); congruence); auto]).
Qed.
Lemma vinv_m c j r c' : vinv c -> nth_error (v_rels c) j = Some r -> mstep c j r = Some c' -> vinv c'.
Proof.
  intros [HL HU HR HP HW HX HF HK HO] E S.
  pose proof (HO _ _ E) as RO. unfold rok in RO.
  pose proof (fun u K => rok_upd c j u HO K) as KU.
  assert (Q : forall u, 
    sumf gL (upd_nth j (fun _ => u) (v_rels c)) + gL r = sumf gL (v_rels c) + gL u /\
    sumf gP (upd_nth j (fun _ => u) (v_rels c)) + gP r = sumf gP (v_rels c) + gP u /\
    sumf gW (upd_nth j (fun _ => u) (v_rels c)) + gW r = sumf gW (v_rels c) + gW u) by (intros u; repeat split; apply sumf_upd; exact E).
  pose proof (sumf_ge gL _ _ _ E) as GL. pose proof (sumf_ge gP _ _ _ E) as GP. pose proof (sumf_ge gW _ _ _ E) as GW.
  destruct c as [mem next ld up rd w ft us rs]. destruct r as [g m gl gs ca dn]. vred. rewrite HF in *. clear HF E HO.
  cbn [r_g r_m r_gotl r_gots r_canc r_done] in *. destruct RO as (R1 & R2 & R3 & R4 & R5). subst gs.
  unfold mstep in S. cbn [r_g r_m r_gotl r_gots r_canc r_done] in S.
  destruct m; try discriminate S; (destruct ca; [specialize (R3 eq_refl); discriminate R3|]); specialize (R2 eq_refl);
    (destruct dn; [specialize (R4 eq_refl); subst g|]); try discriminate S; rewrite R2 in S; try subst gl;
    try destruct g; vred; cbn [gL gP gW r_g r_canc] in GL, GP, GW; destruct ld; vred; try (exfalso; lia); injection S as <-; vred;
    (constructor; vred;
      [match goal with |- context [upd_nth _ (fun _ => ?u) _] => destruct (Q u) as (? & ? & ?); cbn [gL gP gW r_g r_canc] in *; lia end
      |exact HU|exact HR
      |match goal with |- context [upd_nth _ (fun _ => ?u) _] => destruct (Q u) as (? & ? & ?); cbn [gL gP gW r_g r_canc] in *; lia end
      |match goal with |- context [upd_nth _ (fun _ => ?u) _] => destruct (Q u) as (? & ? & ?); cbn [gL gP gW r_g r_canc] in *; lia end
      |exact HX
      |reflexivity|exact HK
      |apply KU; unfold rok; cbn [r_g r_m r_gotl r_gots r_canc r_done] in *;
       repeat split; intros; try congruence; try reflexivity; auto]).
Qed.
Lemma vinv_time c j r : vinv c -> nth_error (v_rels c) j = Some r -> r_m r = MWait ->
  vinv (r_at j (mkRel (r_g r) MOut (r_gotl r) (r_gots r) (r_canc r) (r_done r)) c).
Proof.
  intros [HL HU HR HP HW HX HF HK HO] E M.
  pose proof (HO _ _ E) as RO. unfold rok in RO.
  pose proof (fun u K => rok_upd c j u HO K) as KU.
  assert (Q : forall u, 
    sumf gL (upd_nth j (fun _ => u) (v_rels c)) + gL r = sumf gL (v_rels c) + gL u /\
    sumf gP (upd_nth j (fun _ => u) (v_rels c)) + gP r = sumf gP (v_rels c) + gP u /\
    sumf gW (upd_nth j (fun _ => u) (v_rels c)) + gW r = sumf gW (v_rels c) + gW u) by (intros u; repeat split; apply sumf_upd; exact E).
  destruct r as [g m gl gs ca dn]. cbn [r_g r_m r_gotl r_gots r_canc r_done] in *. subst m.
  destruct (Q (mkRel g MOut gl gs ca dn)) as (A & B & C). cbn [gL gP gW r_g r_canc] in A, B, C.
  unfold gL, gP, gW in A, B, C; cbn [r_g r_canc] in A, B, C. fold gL in A. fold gP in B. fold gW in C.
  constructor; vred; try assumption.
  - fold gL in A. lia.
  - lia.
  - lia.
  - apply KU. unfold rok; cbn [r_g r_m r_gotl r_gots r_canc r_done] in *. destruct RO as (R1 & R2 & R3 & R4 & R5).
    repeat split; try assumption; intros; auto.
    + specialize (R3 H). discriminate R3.
    + destruct (R5 H) as [X|X]; [left; exact X|discriminate X].
Qed.
Lemma vinv_step c x c' : vinv c -> vstep c x = Some c' -> vinv c'.
Proof.
  intros V S. destruct x as [k| |i a|j|j|j]; cbn [vstep] in S.
  - injection S as <-. destruct V as [HL HU HR HP HW HX HF HK HO]. constructor; vred; rewrite ?sumf_app; cbn [sumf]; try assumption.
    + cbn [uL snd fst]. lia.
    + cbn [uU snd fst]. lia.
    + cbn [uR snd fst]. lia.
    + cbn [uP snd fst]. lia.
    + cbn [uW snd fst]. lia.
    + intros i u H. destruct (at_app _ _ _ _ H) as [H1| ->]; [exact (HK _ _ H1)|]. unfold kfit. destruct k; exact Logic.I.
  - injection S as <-. destruct V as [HL HU HR HP HW HX HF HK HO]. constructor; vred; rewrite ?sumf_app; cbn [sumf]; try assumption.
    + cbn [gL r_g]. lia.
    + cbn [gP r_g]. lia.
    + cbn [gW r_g]. lia.
    + intros i u H. destruct (at_app _ _ _ _ H) as [H1| ->]; [exact (HO _ _ H1)|]. unfold rok. cbn [r_g r_m r_gotl r_gots r_canc r_done].
      repeat split; intros; try congruence; auto.
  - destruct (nth_error (v_users c) i) as [[k p]|] eqn:E; [|discriminate]. eapply vinv_u; eassumption.
  - destruct (nth_error (v_rels c) j) as [r|] eqn:E; [|discriminate]. eapply vinv_g; eassumption.
  - destruct (nth_error (v_rels c) j) as [r|] eqn:E; [|discriminate]. destruct (r_m r) eqn:M; try discriminate S. injection S as <-. apply vinv_time; assumption.
  - destruct (nth_error (v_rels c) j) as [r|] eqn:E; [|discriminate]. eapply vinv_m; eassumption.
Qed.
Lemma vinv_exec ok c : vexec ok c -> vinv c.
Proof.
  induction 1 as [|c x c' _ IH _ S]; [exact vinv_start|]. eapply vinv_step; eassumption.
Qed.
