(** Requests for the status of a running job. *)
From Coq Require Import Strings.Byte Strings.String.
From Verif.Lib Require Import Prelude ListAux.
From Verif.Model Require Import Element Elements Segment List Msgp Codec Storage Backup Job Asking.
From Verif.Spec Require Import BackupSpec JobSpec AskingSpec.
From Verif.Proof Require Import BackupP JobP.
Open Scope nat_scope.

Lemma wfire_job ids ch c x e c' : wfire ids ch c x = Some (e, c') ->
  (w_job c' = w_job c /\ e = None /\ w_dead c' = false) \/ exists y b, x = W_job y b /\ jfire ids ch (w_job c) y = Some (e, w_job c') /\ w_req c' = w_req c /\
     w_dead c' = b /\ (b = true -> writes ch (w_job c) y = true /\ existsb iterates (w_req c) = true).
Proof.
  unfold wfire. destruct (w_dead c); [discriminate|]. destruct x as [y b| |i|i|i errs].
  - destruct (jfire ids ch (w_job c) y) as [[e1 j]|] eqn:F; [|discriminate]. destruct b.
    + destruct (writes ch (w_job c) y && existsb iterates (w_req c)) eqn:G; [|discriminate]. intros [= <- <-]. apply andb_true_iff in G. right. exists y, true. cbn. auto.
    + intros [= <- <-]. right. exists y, false. cbn. repeat split; auto; discriminate.
  - intros [= <- <-]. left. auto.
  - destruct (nth_error _ _) as [[|t|t f|t]|]; try discriminate. intros [= <- <-]. left. auto.
  - destruct (nth_error _ _) as [[|t|t f|t]|]; try discriminate. intros [= <- <-]. left. auto.
  - destruct (nth_error _ _) as [[|t|t f|t]|]; try discriminate. destruct (_ && _); [|discriminate]. intros [= <- <-]. left. auto.
Qed.
Lemma wexec_job ok ids ch m tr c : wexec ok ids ch m tr c -> jexec any_choice ids ch m tr (w_job c).
Proof.
  induction 1 as [|tr c x e c' H IH Hx Hf]; [constructor|].
  destruct (wfire_job _ _ _ _ _ _ Hf) as [(E & -> & _)|(y & b & -> & F & _)].
  - rewrite E. cbn [jev]. rewrite app_nil_r. exact IH.
  - econstructor; [exact IH|exact Logic.I|exact F].
Qed.
Lemma subset_incl a b : subset a b = true -> incl a b.
Proof. unfold subset. rewrite forallb_forall. intros H k Hk. specialize (H k Hk). destruct (in_dec string_dec k b); [assumption|discriminate]. Qed.
Lemma jgoes_trans ids ch a n t b n' t' c : jgoes ids ch a n t b -> jgoes ids ch b n' t' c -> exists k, jgoes ids ch a k (t ++ t') c.
Proof.
  intros H. induction 1 as [b|b n' t' c1 x e c2 H1 IH Hf]; [rewrite app_nil_r; eauto|]. destruct (IH H) as [k Hk]. rewrite app_assoc.
  eexists. econstructor; eassumption.
Qed.

(** [t] was the status at some earlier time (or is it now) *)
Definition was (ids : list string) (ch : bool) (m : db) (tr : list jevent) (j : jcfg) (t : status) (t' : status) : Prop :=
  exists tr1 tr2 j1 n, tr = tr1 ++ tr2 /\ jexec any_choice ids ch m tr1 j1 /\ jgoes ids ch j1 n tr2 j /\ j_st j1 = t /\ incl (t_errs t) (t_errs t') /\ incl (t_errs t') (t_errs (j_st j)).
Definition req_ok ids ch m tr j (q : rpc) : Prop :=
  match q with
  | QCame => True
  | QCopy t => was ids ch m tr j t (j_st j)
  | QIter t from => exists e, was ids ch m tr j t (answer t e) /\ from = e
  | QAnswered t => exists t0, was ids ch m tr j t0 t /\ same_but_errors t t0
  end.
Lemma was_step ids ch m tr j t t' x e j' : jfire ids ch j x = Some (e, j') -> was ids ch m tr j t t' -> was ids ch m (tr ++ jev e) j' t t'.
Proof.
  intros F (tr1 & tr2 & j1 & n & -> & H1 & H2 & H3 & H4 & H5). exists tr1, (tr2 ++ jev e), j1, (if is_job x then S n else n).
  rewrite app_assoc. repeat split; auto; [econstructor; eassumption|]. eapply incl_tran; [exact H5|]. exact (proj1 (proj2 (grow_step _ _ _ _ _ _ F))).
Qed.
Lemma was_copy ids ch m tr j t x e j' : jfire ids ch j x = Some (e, j') -> was ids ch m tr j t (j_st j) -> was ids ch m (tr ++ jev e) j' t (j_st j').
Proof.
  intros F (tr1 & tr2 & j1 & n & -> & H1 & H2 & H3 & H4 & H5). exists tr1, (tr2 ++ jev e), j1, (if is_job x then S n else n).
  rewrite app_assoc. repeat split; auto; [econstructor; eassumption| |apply incl_refl]. eapply incl_tran; [exact H4|]. exact (proj1 (proj2 (grow_step _ _ _ _ _ _ F))).
Qed.
Lemma req_step ids ch m tr j x e j' q : jfire ids ch j x = Some (e, j') -> req_ok ids ch m tr j q -> req_ok ids ch m (tr ++ jev e) j' q.
Proof.
  intros F. destruct q as [|t|t f|t]; cbn [req_ok]; auto.
  - apply was_copy with (x := x). exact F.
  - intros (e1 & H & E). exists e1. split; [eapply was_step; eassumption|exact E].
  - intros (t0 & H & E). exists t0. split; [eapply was_step; eassumption|exact E].
Qed.
Lemma Forall_upd {A} (P : A -> Prop) i (f : A -> A) l : Forall P l -> (forall x, nth_error l i = Some x -> P (f x)) -> Forall P (upd_nth i f l).
Proof.
  intros H. revert i. induction H as [|x l Hx HF IH]; intros [|i] Hf; cbn; try constructor; auto; try (apply Hf; reflexivity).
Qed.
Lemma req_inv ok ids ch m tr c : wexec ok ids ch m tr c -> Forall (req_ok ids ch m tr (w_job c)) (w_req c).
Proof.
  induction 1 as [|tr c x e c' H IH Hx Hf]; [constructor|].
  pose proof (wexec_job _ _ _ _ _ _ H) as HJ.
  unfold wfire in Hf. destruct (w_dead c); [discriminate|]. destruct x as [y b| |i|i|i errs].
  - destruct (jfire ids ch (w_job c) y) as [[e1 j]|] eqn:F; [|discriminate].
    assert (G : Forall (req_ok ids ch m (tr ++ jev e1) j) (w_req c)) by (eapply Forall_impl; [|exact IH]; intros q; eapply req_step; exact F).
    destruct b; [destruct (_ && _); [|discriminate]|]; injection Hf as <- <-; exact G.
  - injection Hf as <- <-. cbn [jev w_job w_req]. rewrite app_nil_r. apply Forall_app. split; [exact IH|]. constructor; [exact Logic.I|constructor].
  - destruct (nth_error (w_req c) i) as [[|t|t f|t]|] eqn:EN; try discriminate. injection Hf as <- <-. cbn [jev w_job w_req]. rewrite app_nil_r.
    apply Forall_upd; [exact IH|]. intros q _. cbn [req_ok]. exists tr, [], (w_job c), 0. rewrite app_nil_r. repeat split; auto using incl_refl. constructor.
  - destruct (nth_error (w_req c) i) as [[|t|t f|t]|] eqn:EN; try discriminate. injection Hf as <- <-. cbn [jev w_job w_req]. rewrite app_nil_r.
    apply Forall_upd; [exact IH|]. intros q _. cbn [req_ok]. exists (t_errs (j_st (w_job c))). split; [|reflexivity].
    rewrite Forall_forall in IH. pose proof (IH _ (nth_error_In _ _ EN)) as (tr1 & tr2 & j1 & n & A1 & A2 & A3 & A4 & A5 & A6).
    exists tr1, tr2, j1, n. repeat split; auto.
  - destruct (nth_error (w_req c) i) as [[|t|t f|t]|] eqn:EN; try discriminate. destruct (subset f errs && subset errs (t_errs (j_st (w_job c)))) eqn:ES; [|discriminate].
    injection Hf as <- <-. cbn [jev w_job w_req]. rewrite app_nil_r. apply andb_true_iff in ES as [S1 S2]. apply subset_incl in S1, S2.
    apply Forall_upd; [exact IH|]. intros q _. cbn [req_ok]. exists t.
    rewrite Forall_forall in IH. pose proof (IH _ (nth_error_In _ _ EN)) as (e1 & (tr1 & tr2 & j1 & n & A1 & A2 & A3 & A4 & A5 & A6) & ->).
    split; [|repeat split; reflexivity]. exists tr1, tr2, j1, n. repeat split; auto. cbn [answer t_errs] in *. eapply incl_tran; eassumption.
Qed.
Lemma c78_answer ids ch m tr c t : wexec any_ask ids ch m tr c -> In (QAnswered t) (w_req c) ->
  exists tr1 tr2 j1 n, tr = tr1 ++ tr2 /\ jexec any_choice ids ch m tr1 j1 /\ jgoes ids ch j1 n tr2 (w_job c) /\ same_but_errors t (j_st j1) /\
    incl (t_errs (j_st j1)) (t_errs t) /\ incl (t_errs t) (t_errs (j_st (w_job c))).
Proof.
  intros H Hin. pose proof (req_inv _ _ _ _ _ _ H) as HF. rewrite Forall_forall in HF. destruct (HF _ Hin) as (t0 & (tr1 & tr2 & j1 & n & A1 & A2 & A3 & A4 & A5 & A6) & B).
  subst t0. exists tr1, tr2, j1, n. auto 10.
Qed.
Lemma c78_final ids ch m tr c t : wexec any_ask ids ch m tr c -> In (QAnswered t) (w_req c) -> t_done t = true ->
  over (w_job c) /\ same_but_errors t (j_st (w_job c)) /\ same_set (t_errs t) (t_errs (j_st (w_job c))).
Proof.
  intros H Hin HD. destruct (c78_answer _ _ _ _ _ _ H Hin) as (tr1 & tr2 & j1 & n & A1 & A2 & A3 & A4 & A5 & A6).
  destruct A4 as (B1 & B2 & B3 & B4). rewrite HD in B1. destruct (c60_grows _ _ _ _ _ _ _ _ A2 A3) as (_ & _ & _ & G). destruct (G (eq_sym B1)) as [G1 _].
  unfold over, same_but_errors, same_set. rewrite G1. rewrite <- B1. rewrite G1 in A6. auto 10.
Qed.

(** ** the process lives on when nothing is written *)
Lemma quiet_step ids ch c y e c' : (forall id, In id ids -> j_db c id <> None) -> incl (todo ids (j_pc c)) ids -> t_errs (j_st c) = [] ->
  no_errors ids (W_job y true) -> jfire ids ch c y = Some (e, c') ->
  writes ch c y = false /\ (forall id, In id ids -> j_db c' id <> None) /\ incl (todo ids (j_pc c')) ids /\ t_errs (j_st c') = [].
Proof.
  intros HD HI HE HN. jp c. destruct y as [ok n|n| |failed|m'| | |]; cbn [jfire j_pc j_st j_db j_out j_pend j_bad j_cut j_hook writes no_errors] in *.
  - subst ok. destruct pc as [|[|id rest]|id rest|id rest| | | |]; intros E; cbn [negb].
    + injection E as <- <-. jcbn. auto.
    + injection E as <- <-. jcbn. auto.
    + destruct cut; injection E as <- <-; jcbn; repeat split; auto. intros ? [].
    + cbn [todo] in HI. assert (Hid : m id <> None) by (apply HD, HI; left; reflexivity). destruct (m id) as [[d l]|] eqn:Em; [|congruence]. injection E as <- <-. jcbn. auto.
    + injection E as <- <-. jcbn. repeat split; auto. intros k Hk. apply HI. right. exact Hk.
    + injection E as <- <-. jcbn. auto.
    + destruct pend, bad; try discriminate; injection E as <- <-; jcbn; auto.
    + destruct ch; try discriminate; injection E as <- <-; jcbn; auto.
    + discriminate.
  - destruct bad; [discriminate|]. intros [= <- <-]. jcbn. auto.
  - intros [= <- <-]. jcbn. auto.
  - subst failed. destruct pc, ch; try discriminate. intros [= <- <-]. jcbn. auto.
  - intros [= <- <-]. jcbn. auto.
  - intros [= <- <-]. jcbn. auto.
  - intros [= <- <-]. jcbn. auto.
  - intros [= <- <-]. jcbn. auto.
Qed.
Lemma c78_quiet ids ch m tr c : (forall id, In id ids -> m id <> None) -> wexec (no_errors ids) ids ch m tr c ->
  w_dead c = false /\ t_errs (j_st (w_job c)) = [].
Proof.
  intros Hm H. assert (G : w_dead c = false /\ (forall id, In id ids -> j_db (w_job c) id <> None) /\ incl (todo ids (j_pc (w_job c))) ids /\ t_errs (j_st (w_job c)) = []); [|tauto].
  induction H as [|tr c x e c' H (I1 & I2 & I3 & I4) Hx Hf]; [cbn; auto using incl_refl|].
  destruct (wfire_job _ _ _ _ _ _ Hf) as [(E & -> & E')|(y & b & -> & F & E1 & E2 & E3)].
  - rewrite E. auto.
  - destruct (quiet_step _ _ _ _ _ _ I2 I3 I4 Hx F) as (Q1 & Q2 & Q3 & Q4). split; [|auto]. rewrite E2. destruct b; [|reflexivity].
    destruct (E3 eq_refl) as [X _]. congruence.
Qed.
(** the process ends only at a write to Errors while a request goes through it *)
Lemma c78_dies ids ch c x e c' : wfire ids ch c x = Some (e, c') -> w_dead c' = true ->
  (exists t from, In (QIter t from) (w_req c)) /\ exists y, x = W_job y true /\ writes ch (w_job c) y = true.
Proof.
  intros Hf HD. destruct (wfire_job _ _ _ _ _ _ Hf) as [(E & -> & E')|(y & b & -> & F & E1 & E2 & E3)]; [congruence|].
  rewrite HD in E2. subst b. destruct (E3 eq_refl) as [A B]. split; [|exists y; auto]. apply existsb_exists in B as (q & Hq & B). destruct q; try discriminate B. eauto.
Qed.
Lemma st_err_sets t k k' : In k' (t_errs (st_err t k)) <-> k' = k \/ In k' (t_errs t).
Proof.
  unfold st_err. cbn [t_errs]. destruct (in_dec string_dec k (t_errs t)); cbn [In]; intuition congruence.
Qed.
Lemma c78_writes ids ch c y e c' : jfire ids ch c y = Some (e, c') ->
  if writes ch c y then exists k, forall k', In k' (t_errs (j_st c')) <-> k' = k \/ In k' (t_errs (j_st c)) else t_errs (j_st c') = t_errs (j_st c).
Proof.
  jp c. destruct y as [ok n|n| |failed|m'| | |]; cbn [jfire j_pc j_st j_db j_out j_pend j_bad j_cut j_hook writes].
  - destruct pc as [|[|id rest]|id rest|id rest| | | |]; intros E.
    + destruct ok; injection E as <- <-; [reflexivity|]. exists "saver"%string. apply st_err_sets.
    + injection E as <- <-. reflexivity.
    + destruct cut; injection E as <- <-; reflexivity.
    + destruct (m id) as [[d l]|]; [destruct ok|]; injection E as <- <-; [reflexivity| |]; exists id; apply st_err_sets.
    + destruct ok; [injection E as <- <-; reflexivity|]. destruct bad; [|discriminate]. injection E as <- <-. exists id. apply st_err_sets.
    + destruct ok; [injection E as <- <-; reflexivity|]. destruct bad; [|discriminate]. injection E as <- <-. exists "finalizing"%string. apply st_err_sets.
    + destruct pend, bad; try discriminate; injection E as <- <-; reflexivity.
    + destruct ch; try discriminate; injection E as <- <-; reflexivity.
    + discriminate.
  - destruct bad; [discriminate|]. intros [= <- <-]. reflexivity.
  - intros [= <- <-]. reflexivity.
  - destruct pc, ch; try discriminate. intros [= <- <-]. destruct failed; [|reflexivity]. exists "delayed_error"%string. intros k'. exact (st_err_sets _ _ _).
  - intros [= <- <-]. reflexivity.
  - intros [= <- <-]. reflexivity.
  - intros [= <- <-]. reflexivity.
  - intros [= <- <-]. reflexivity.
Qed.
Lemma wplay_exec ok ids ch m l : Forall ok l -> forall tr0 c tr c', wexec ok ids ch m tr0 c -> wplay ids ch c l = Some (tr, c') -> wexec ok ids ch m (tr0 ++ tr) c'.
Proof.
  induction 1 as [|x l Hx HF IH]; cbn [wplay]; intros tr0 c tr c' H E; [injection E as <- <-; rewrite app_nil_r; exact H|].
  destruct (wfire ids ch c x) as [[e c1]|] eqn:F; [|discriminate]. destruct (wplay ids ch c1 l) as [[t c2]|] eqn:G; [|discriminate]. injection E as <- <-.
  rewrite app_assoc. eapply IH; [|exact G]. econstructor; eassumption.
Qed.
Lemma wplay_see {A} (f : list jevent * wcfg -> A) ids ch c l a : option_map f (wplay ids ch c l) = Some a -> exists tr c', wplay ids ch c l = Some (tr, c') /\ f (tr, c') = a.
Proof. destruct (wplay ids ch c l) as [[tr c']|]; [|discriminate]. intros [= E]. eauto. Qed.
