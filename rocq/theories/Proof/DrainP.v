(** Proofs for the limit on updates and orderly shutdown (C64). *)
From Verif.Lib Require Import Prelude ListAux.
From Verif.Model Require Import Drain.
From Verif.Spec Require Import DrainSpec.
From Verif.Proof Require Import LocksP.
Open Scope nat_scope.

(** case analysis on an event that happened *)
Ltac dn E := unfold dnext in E; repeat
  match type of E with
  | context [match nth_error ?l ?i with _ => _ end] => let r := fresh "r" in let Hr := fresh "Hr" in destruct (nth_error l i) as [r|] eqn:Hr; [|discriminate E]
  | context [match r_pc ?r with _ => _ end] => let Hp := fresh "Hp" in destruct (r_pc r) as [| |[|? ?]|?] eqn:Hp; try discriminate E
  | context [match d_stage ?s with _ => _ end] => let Hs := fresh "Hs" in destruct (d_stage s) as [| | |[|]| |] eqn:Hs; try discriminate E
  | context [match d_free ?s with _ => _ end] => let Hf := fresh "Hf" in destruct (d_free s) eqn:Hf; try discriminate E
  | context [match r_going ?r with _ => _ end] => let Hg := fresh "Hg" in destruct (r_going r) eqn:Hg; try discriminate E
  | context [match d_queue ?s with _ => _ end] => let Hq := fresh "Hq" in destruct (d_queue s) eqn:Hq; try discriminate E
  | context [if ?b then _ else _] => let Hb := fresh "Hb" in destruct b eqn:Hb; try discriminate E
  end; try (injection E as <-).

Lemma nth_put {A} (l : list A) i x j y : nth_error (upd_nth i (fun _ => x) l) j = Some y ->
  (j = i /\ y = x) \/ (j <> i /\ nth_error l j = Some y).
Proof.
  destruct (Nat.eq_dec j i) as [->|H]; [|rewrite nth_upd_other by congruence; auto].
  destruct (nth_error l i) as [z|] eqn:E; [rewrite (nth_upd_same l i x z E); intros H; left; split; congruence|].
  intros H. exfalso. assert (L : i < length (upd_nth i (fun _ => x) l)) by (apply nth_error_Some; congruence).
  rewrite ChangeP.upd_nth_length in L. apply nth_error_None in E. lia.
Qed.

(** ** Tokens *)
Lemma count_put (f : req -> bool) x : forall l i r, nth_error l i = Some r ->
  length (filter f (upd_nth i (fun _ => x) l)) + (if f r then 1 else 0) = length (filter f l) + (if f x then 1 else 0).
Proof.
  induction l as [|y l IH]; intros [|i] r E; try discriminate; cbn [nth_error upd_nth filter] in *.
  - injection E as ->. destruct (f x), (f r); cbn [length]; lia.
  - specialize (IH i r E). destruct (f y); cbn [length]; lia.
Qed.
Lemma give_back_same s r : d_reqs (give_back s r) = d_reqs s /\ d_max (give_back s r) = d_max s.
Proof. unfold give_back. destruct (limited s && has_token r); auto. Qed.
Lemma give_back_free s r : limited s = true -> d_free (give_back s r) = d_free s + (if has_token r then 1 else 0).
Proof. intros L. unfold give_back. rewrite L. destruct (has_token r); cbn; lia. Qed.
Lemma max_const s tr s' : dgoes s tr s' -> d_max s' = d_max s.
Proof.
  induction 1 as [|tr t e t' HG IH E]; [reflexivity|]. rewrite <- IH. clear - E.
  destruct e; dn E; try reflexivity; cbn [set_req set_reqs d_max]; try apply give_back_same.
Qed.

Ltac cnt := match goal with
  | Hr : nth_error (d_reqs ?t) ?i = Some ?r |- context [filter at_work_now (upd_nth ?i (fun _ => ?x) (d_reqs ?t))] =>
    let C := fresh "C" in pose proof (count_put at_work_now x _ _ _ Hr) as C; unfold at_work_now at 2 4 in C;
    cbn [at_pc at_work r_pc r_upd] in C;
    try match goal with Hp : r_pc r = _ |- _ => rewrite Hp in C end
  end.
Lemma c64_limit max tr s : dexec max tr s -> 0 < max -> updates s + d_free s = max.
Proof.
  intros HX Hm. pose proof (max_const _ _ _ HX) as HM. cbn in HM. unfold dexec in HX.
  induction HX as [|tr t e t' HG IH E]; [reflexivity|].
  pose proof (max_const _ _ _ HG) as HM0. cbn in HM0. specialize (IH HM0). clear HM HG.
  assert (HL : limited t = true) by (unfold limited; apply Nat.ltb_lt; lia).
  unfold updates in *.
  destruct e; dn E; cbn [set_req set_reqs set_stage set_bg set_free d_reqs d_free] in *;
    rewrite ?(proj1 (give_back_same _ _)), ?(give_back_free _ _ HL);
    unfold has_token; try match goal with Hp : r_pc _ = _ |- _ => rewrite ?Hp end; rewrite ?HL in *; cbn [andb] in *; try exact IH; try discriminate.
  all: try (rewrite filter_app, app_length; cbn; lia).
  all: try (cnt; repeat match goal with H : context [if r_upd ?r then _ else _] |- _ => destruct (r_upd r) | |- context [if r_upd ?r then _ else _] => destruct (r_upd r) end; try discriminate; lia).
Qed.

(** ** Requests *)
(** a request and what it did; [i]: its number *)
Definition rinv (s : dst) (i : nat) (r : req) : Prop :=
  match r_pc r with
  | P_new | P_in | P_end A_shut | P_end A_cancelled => r_going r = [] /\ r_done r = []
  | P_run todo => incl todo (r_tasks r)
  | P_end (A_ok ts) => r_going r = [] /\ ts = r_done r
  | P_end A_nothing => True
  end /\
  incl (r_going r) (r_tasks r) /\ incl (r_done r) (r_tasks r) /\
  forall t, In t (r_done r) -> In (i, t) (d_eff s) \/ In (i, t) (d_gone s).
Definition owned (s : dst) : Prop :=
  forall i t, In (i, t) (d_eff s) \/ In (i, t) (d_gone s) -> exists r, nth_error (d_reqs s) i = Some r /\ In t (r_done r).

Lemma take_out_incl t l : incl (take_out t l) l.
Proof.
  induction l as [|x l IH]; cbn [take_out]; [apply incl_refl|]. destruct (x =? t); [apply incl_tl, incl_refl|].
  apply incl_cons; [left; reflexivity|apply incl_tl, IH].
Qed.
Lemma going_in t l : existsb (Nat.eqb t) l = true -> In t l.
Proof. intros H. apply existsb_exists in H as (x & Hx & E). apply Nat.eqb_eq in E as ->. exact Hx. Qed.
Lemma going_nil t : existsb (Nat.eqb t) [] = true -> False.
Proof. discriminate. Qed.

(** what changes: nothing about requests; a new one; one of them *)
Lemma reqs_step s e s' : dnext s e = Some s' ->
  (d_reqs s' = d_reqs s) \/
  (exists u m ts, d_reqs s' = d_reqs s ++ [mkR u m ts false P_new [] []]) \/
  (exists i r r', nth_error (d_reqs s) i = Some r /\ d_reqs s' = upd_nth i (fun _ => r') (d_reqs s) /\ r_tasks r' = r_tasks r /\
     (* cancelled, let in, at work or ended *)
     ((r_pc r' = r_pc r /\ r_going r' = r_going r /\ r_done r' = r_done r) \/
      (r_pc r = P_new /\ r_going r' = r_going r /\ r_done r' = r_done r /\ r_pc r' = (match d_stage s with S_up => P_in | _ => P_end A_shut end)) \/
      (r_pc r = P_in /\ r_going r' = r_going r /\ r_done r' = r_done r /\ (r_pc r' = P_run (r_tasks r) \/ r_pc r' = P_end A_shut \/ r_pc r' = P_end A_cancelled)) \/
      (exists t ts, r_pc r = P_run (t :: ts) /\ r_pc r' = P_run ts /\ r_going r' = t :: r_going r /\ r_done r' = r_done r) \/
      (exists t ts, r_pc r = P_run (t :: ts) /\ r_pc r' = P_end A_nothing /\ r_going r' = r_going r /\ r_done r' = r_done r) \/
      (r_pc r = P_run [] /\ r_going r = [] /\ r_going r' = [] /\ r_done r' = r_done r /\ r_pc r' = P_end (A_ok (r_done r))) \/
      (exists t, In t (r_going r) /\ r_pc r' = r_pc r /\ r_going r' = take_out t (r_going r) /\
         (r_done r' = r_done r \/ (r_done r' = t :: r_done r /\ exists a, e = E_effect i t a))))).
Proof.
  intros E.
  destruct e; dn E; try (left; reflexivity); cbn [set_req set_reqs set_free d_reqs]; rewrite ?(proj1 (give_back_same _ _));
    try (right; left; eauto; fail);
    right; right; match goal with Hr : nth_error _ ?i = Some ?r |- _ => exists i, r end; eexists; (split; [eassumption|]); (split; [reflexivity|]); (split; [reflexivity|]);
    cbn [at_pc at_work r_pc r_going r_done].
  all: try (left; repeat split; reflexivity).
  all: try (right; left; repeat split; assumption || reflexivity).
  all: try (right; right; left; repeat split; auto; fail).
  all: try (right; right; right; left; eexists; eexists; repeat split; assumption || reflexivity).
  all: try (right; right; right; right; left; eexists; eexists; repeat split; assumption || reflexivity).
  all: try (right; right; right; right; right; left; repeat split; assumption || reflexivity).
  all: try (match goal with Hb : existsb (Nat.eqb ?t) _ = true |- _ => right; right; right; right; right; right; exists t; (split; [exact (going_in _ _ Hb)|]) end;
    (split; [reflexivity|]); (split; [reflexivity|]); eauto; fail).
  right; right; right; right; left. exists n, l. auto.
Qed.

(** effects *)
Lemma eff_step s e s' : dnext s e = Some s' ->
  (d_eff s' = d_eff s /\ d_gone s' = d_gone s) \/
  (exists i t a, e = E_effect i t a /\ d_stage s <> S_closed /\ d_eff s' = (i, t) :: d_eff s /\ d_gone s' = d_gone s) \/
  (exists i t a, e = E_effect i t a /\ d_stage s = S_closed /\ d_eff s' = d_eff s /\ d_gone s' = (i, t) :: d_gone s).
Proof.
  intros E. assert (G : forall r, d_eff (give_back s r) = d_eff s /\ d_gone (give_back s r) = d_gone s) by (intros r; unfold give_back; destruct (limited s && has_token r); auto).
  destruct e; dn E; try (left; split; reflexivity); try (left; apply G).
  all: try (right; left; exists i, t; eexists; split; [reflexivity|]; split; [congruence|]; split; reflexivity).
  all: right; right; exists i, t; eexists; split; [reflexivity|]; split; [congruence|]; split; reflexivity.
Qed.
Lemma eff_mono s e s' x : dnext s e = Some s' -> In x (d_eff s) \/ In x (d_gone s) -> In x (d_eff s') \/ In x (d_gone s').
Proof.
  intros E H. destruct (eff_step _ _ _ E) as [(-> & ->)|[(i & t & a & _ & _ & -> & ->)|(i & t & a & _ & _ & -> & ->)]]; cbn; tauto.
Qed.
Lemma eff_new s i t a s' : dnext s (E_effect i t a) = Some s' -> In (i, t) (d_eff s') \/ In (i, t) (d_gone s').
Proof.
  intros E. dn E; cbn; auto.
Qed.

Lemma rinv_all max tr s : dexec max tr s -> forall i r, nth_error (d_reqs s) i = Some r -> rinv s i r.
Proof.
  unfold dexec. induction 1 as [|tr t e t' HG IH E]; intros i r Hr; [destruct i; discriminate|].
  assert (K : forall r0, rinv t i r0 -> rinv t' i r0).
  { intros r0 (A & B & C & D). split; [exact A|]. split; [exact B|]. split; [exact C|]. intros x Hx. apply (eff_mono _ _ _ _ E (D x Hx)). }
  destruct (reqs_step _ _ _ E) as [Eq|[(u & m & ts & Eq)|(j & r0 & r1 & Hj & Eq & Ht & HC)]]; rewrite Eq in Hr.
  - apply K, IH, Hr.
  - destruct (Nat.lt_ge_cases i (length (d_reqs t))) as [L|L]; [rewrite nth_error_app1 in Hr by exact L; apply K, IH, Hr|].
    rewrite nth_error_app2 in Hr by exact L. destruct (i - length (d_reqs t)) as [|[|k]]; try discriminate. injection Hr as <-.
    repeat split; intros x [].
  - apply nth_put in Hr as [(-> & ->)|(_ & Hr)]; [|apply K, IH, Hr].
    destruct (K r0 (IH j r0 Hj)) as (A & B & C & D). unfold rinv. rewrite Ht.
    destruct HC as [(P & G & F)|[(P & G & F & P')|[(P & G & F & P')|[(x & ts & P & P' & G & F)|[(x & ts & P & P' & G & F)|[(P & G0 & G & F & P')|(x & Hx & P & G & F)]]]]]].
    + rewrite P, G, F. auto.
    + rewrite P in A. rewrite G, F. split; [rewrite P'; destruct (d_stage t); exact A|auto].
    + rewrite P in A. rewrite G, F. split; [|auto]. destruct P' as [-> |[-> | ->]]; [apply incl_refl|exact A|exact A].
    + rewrite P in A. rewrite P', G, F. split; [intros y Hy; apply A; right; exact Hy|]. split; [|auto].
      apply incl_cons; [apply A; left; reflexivity|exact B].
    + rewrite P', G, F. auto.
    + rewrite P', G, F. rewrite G0 in B. auto.
    + rewrite P, G. assert (G1 : incl (take_out x (r_going r0)) (r_tasks r0)) by (intros y Hy; apply B; apply (take_out_incl x _ y Hy)).
      assert (A' : r_pc r0 = r_pc r0 /\ match r_pc r0 with P_run todo => incl todo (r_tasks r0) | P_end A_nothing => True | _ => False end).
      { split; [reflexivity|]. destruct (r_pc r0) as [| |todo|[| |ts|]]; auto; destruct A as (A & _); rewrite A in Hx; destruct Hx. }
      destruct A' as (_ & A').
      split; [destruct (r_pc r0) as [| |todo|[| |ts|]]; auto; contradiction|]. split; [exact G1|].
      destruct F as [F|(F & a & ->)]; rewrite F; [auto|]. split; [apply incl_cons; [apply B, Hx|exact C]|].
      intros y [<-|Hy]; [apply (eff_new _ _ _ _ _ E)|apply D, Hy].
Qed.

(** every effect is a task of a request that was let in *)
Lemma owned_all max tr s : dexec max tr s -> owned s.
Proof.
  intros HX. { unfold dexec in HX. induction HX as [|tr u e u' HG IH E]; [intros j x [[]|[]]|]. intros j x Hx.
    assert (KK : (exists r, nth_error (d_reqs u) j = Some r /\ In x (r_done r)) -> exists r, nth_error (d_reqs u') j = Some r /\ In x (r_done r)).
    { intros (r & Hr & Hd). destruct (reqs_step _ _ _ E) as [Eq|[(a & m & ts & Eq)|(k & r0 & r1 & Hk & Eq & Ht & HC)]]; rewrite Eq.
      - eauto.
      - exists r. split; [rewrite nth_error_app1; [exact Hr|apply nth_error_Some; congruence]|exact Hd].
      - destruct (Nat.eq_dec k j) as [->|N]; [|exists r; rewrite nth_upd_other by exact N; auto].
        exists r1. rewrite (nth_upd_same _ _ r1 r0 Hk). split; [reflexivity|]. rewrite Hk in Hr. injection Hr as ->.
        assert (HD : r_done r1 = r_done r \/ exists y, r_done r1 = y :: r_done r).
        { destruct HC as [(P & G & F)|[(P & G & F & P')|[(P & G & F & P')|[(y & ts & P & P' & G & F)|[(y & ts & P & P' & G & F)|[(P & G0 & G & F & P')|(y & Hy & P & G & F)]]]]]]; auto.
          destruct F as [F|(F & _)]; eauto. }
        destruct HD as [->|(y & ->)]; [exact Hd|right; exact Hd]. }
    assert (EN : forall a, e = E_effect j x a -> exists r, nth_error (d_reqs u') j = Some r /\ In x (r_done r)).
    { intros a ->. clear - E. dn E; cbn [d_reqs set_req set_reqs]; (eexists; split; [apply (nth_upd_same _ _ _ _ Hr)|left; reflexivity]). }
    destruct (eff_step _ _ _ E) as [(E1 & E2)|[(i0 & t0 & a & Ea & _ & E1 & E2)|(i0 & t0 & a & Ea & _ & E1 & E2)]]; rewrite E1, E2 in Hx.
    - apply KK, IH, Hx.
    - destruct Hx as [[Hx|Hx]|Hx]; [injection Hx as -> ->; apply (EN a Ea)|apply KK, IH; auto|apply KK, IH; auto].
    - destruct Hx as [Hx|[Hx|Hx]]; [apply KK, IH; auto|injection Hx as -> ->; apply (EN a Ea)|apply KK, IH; auto]. }
Qed.
Lemma c64_owned max tr s i t : dexec max tr s -> In (i, t) (d_eff s) \/ In (i, t) (d_gone s) ->
  exists r, nth_error (d_reqs s) i = Some r /\ In t (r_tasks r) /\ r_pc r <> P_end A_shut /\ r_pc r <> P_end A_cancelled.
Proof.
  intros HX H. pose proof (owned_all _ _ _ HX) as HO.
  destruct (HO i t H) as (r & Hr & Hd). exists r. destruct (rinv_all _ _ _ HX i r Hr) as (A & B & C & D).
  split; [exact Hr|]. split; [apply C, Hd|]. split; intros P; rewrite P in A; destruct A as (_ & A); rewrite A in Hd; destruct Hd.
Qed.

(** ** Refusal *)
Lemma down_stays s tr s' : dgoes s tr s' -> d_stage s <> S_up -> d_stage s' <> S_up.
Proof.
  intros HG Hs. induction HG as [|tr t e t' HG IH E]; [exact Hs|].
  assert (G : forall r, d_stage (give_back t r) = d_stage t) by (intros r; unfold give_back; destruct (limited t && has_token r); auto).
  destruct e; dn E; cbn [set_req set_reqs set_stage set_bg set_free d_stage]; rewrite ?G; congruence.
Qed.
Lemma c64_refused s tr s' i r : d_stage s <> S_up -> dgoes s tr s' -> length (d_reqs s) <= i -> nth_error (d_reqs s') i = Some r ->
  (r_pc r = P_new \/ r_pc r = P_end A_shut) /\ r_going r = [] /\ r_done r = [].
Proof.
  intros Hs HG Hi. revert r. induction HG as [|tr t e t' HG IH E]; intros r Hr.
  - exfalso. assert (i < length (d_reqs s)) by (apply nth_error_Some; congruence). lia.
  - pose proof (down_stays _ _ _ HG Hs) as Hd.
    destruct (reqs_step _ _ _ E) as [Eq|[(u & m & ts & Eq)|(j & r0 & r1 & Hj & Eq & Ht & HC)]]; rewrite Eq in Hr.
    + apply IH, Hr.
    + destruct (Nat.lt_ge_cases i (length (d_reqs t))) as [L|L]; [rewrite nth_error_app1 in Hr by exact L; apply IH, Hr|].
      rewrite nth_error_app2 in Hr by exact L. destruct (i - length (d_reqs t)) as [|[|k]]; try discriminate. injection Hr as <-. auto.
    + apply nth_put in Hr as [(-> & ->)|(_ & Hr)]; [|apply IH, Hr]. destruct (IH r0 Hj) as (A & B & C).
      destruct HC as [(P & G & F)|[(P & G & F & P')|[(P & G & F & P')|[(x & ts & P & P' & G & F)|[(x & ts & P & P' & G & F)|[(P & G0 & G & F & P')|(x & Hx & P & G & F)]]]]]].
      * rewrite P, G, F. auto.
      * rewrite P', G, F. destruct (d_stage t); auto; congruence.
      * exfalso. destruct A; congruence.
      * exfalso. destruct A; congruence.
      * exfalso. destruct A; congruence.
      * exfalso. destruct A; congruence.
      * exfalso. rewrite B in Hx. destruct Hx.
Qed.

(** ** What is kept *)
Definition past (g : stage) : bool := match g with S_save true | S_close | S_closed => true | _ => false end.
Lemma stage_step s e s' : dnext s e = Some s' -> e <> E_timeout ->
  (d_stage s' = d_stage s /\ d_saved s' = d_saved s) \/
  (d_reqs s' = d_reqs s /\ d_eff s' = d_eff s /\ d_gone s' = d_gone s /\
   ((d_stage s = S_up /\ d_stage s' = S_pre /\ d_saved s' = d_saved s) \/
    (d_stage s = S_pre /\ d_stage s' = S_first /\ existsb has_lock (d_reqs s) = false /\ d_saved s' = d_saved s) \/
    (d_stage s = S_first /\ d_stage s' = S_save false /\ d_saved s' = d_saved s) \/
    (d_stage s = S_save false /\ d_stage s' = S_save true /\ d_saved s' = d_eff s) \/
    (d_stage s = S_save true /\ d_stage s' = S_close /\ d_saved s' = d_saved s) \/
    (d_stage s = S_close /\ d_stage s' = S_closed /\ d_saved s' = d_saved s))).
Proof.
  intros E Ht.
  assert (G : forall r, d_stage (give_back s r) = d_stage s /\ d_saved (give_back s r) = d_saved s) by (intros r; unfold give_back; destruct (limited s && has_token r); auto).
  destruct e; try congruence; dn E; cbn [set_req set_reqs set_stage set_bg set_free d_stage d_saved d_reqs d_eff d_gone];
    try (left; split; try reflexivity; try congruence; fail); try (left; apply G).
  all: right; (split; [reflexivity|]); (split; [reflexivity|]); (split; [reflexivity|]).
  all: try match goal with H : _ && _ = true |- _ => apply andb_true_iff in H as (H1 & H2); apply negb_true_iff in H2 end; auto 12.
Qed.

Definition kept (s : dst) : Prop :=
  (match d_stage s with S_up | S_pre => True | _ => existsb has_lock (d_reqs s) = false end) /\
  (d_stage s <> S_closed -> d_gone s = []) /\
  (past (d_stage s) = true -> forall i r ts t, nth_error (d_reqs s) i = Some r -> r_pc r = P_end (A_ok ts) -> In t ts -> In (i, t) (d_saved s)).
Lemma no_lock s i r : existsb has_lock (d_reqs s) = false -> nth_error (d_reqs s) i = Some r -> has_lock r = false.
Proof.
  intros H Hr. destruct (has_lock r) eqn:E; [|reflexivity]. assert (existsb has_lock (d_reqs s) = true) by (apply existsb_exists; exists r; split; [apply (nth_error_In _ _ Hr)|exact E]). congruence.
Qed.
Lemma no_lock_step s e s' : dnext s e = Some s' -> d_stage s <> S_up -> existsb has_lock (d_reqs s) = false ->
  existsb has_lock (d_reqs s') = false /\
  forall i r ts, nth_error (d_reqs s') i = Some r -> r_pc r = P_end (A_ok ts) -> exists r0, nth_error (d_reqs s) i = Some r0 /\ r_pc r0 = P_end (A_ok ts).
Proof.
  intros E Hs HN.
  assert (HA : forall i r, nth_error (d_reqs s') i = Some r -> has_lock r = false /\
    forall ts, r_pc r = P_end (A_ok ts) -> exists r0, nth_error (d_reqs s) i = Some r0 /\ r_pc r0 = P_end (A_ok ts)).
  { intros i r Hr. destruct (reqs_step _ _ _ E) as [Eq|[(u & m & ts & Eq)|(j & r0 & r1 & Hj & Eq & Ht & HC)]]; rewrite Eq in Hr.
    - split; [apply (no_lock _ _ _ HN Hr)|eauto].
    - destruct (Nat.lt_ge_cases i (length (d_reqs s))) as [L|L]; [rewrite nth_error_app1 in Hr by exact L; split; [apply (no_lock _ _ _ HN Hr)|eauto]|].
      rewrite nth_error_app2 in Hr by exact L. destruct (i - length (d_reqs s)) as [|[|k]]; try discriminate. injection Hr as <-.
      split; [reflexivity|intros ts' C; discriminate C].
    - apply nth_put in Hr as [(-> & ->)|(_ & Hr)]; [|split; [apply (no_lock _ _ _ HN Hr)|eauto]].
      pose proof (no_lock _ _ _ HN Hj) as L. unfold has_lock in *.
      destruct HC as [(P & G & F)|[(P & G & F & P')|[(P & G & F & P')|[(x & ts & P & P' & G & F)|[(x & ts & P & P' & G & F)|[(P & G0 & G & F & P')|(x & Hx & P & G & F)]]]]]];
        try (rewrite P in L; discriminate).
      + rewrite P. split; [exact L|eauto].
      + rewrite P'. destruct (d_stage s); try congruence; (split; [reflexivity|intros ts C; discriminate C]).
      + rewrite P. split; [exact L|eauto]. }
  split; [|intros i r ts Hr; apply (HA i r Hr)].
  destruct (existsb has_lock (d_reqs s')) eqn:X; [|reflexivity]. apply existsb_exists in X as (r & Hin & Hl).
  apply In_nth_error in Hin as (i & Hi). destruct (HA i r Hi). congruence.
Qed.
Lemma kept_all max tr s : dexec max tr s -> in_time tr -> kept s.
Proof.
  intros HX. pose proof (rinv_all _ _ _ HX) as HR. revert HR. unfold dexec in HX.
  induction HX as [|tr t e t' HG IH E]; intros HR Ht.
  - split; [exact Logic.I|]. split; [reflexivity|]. intros C. discriminate C.
  - assert (Ht0 : in_time tr) by (intros C; apply Ht; right; exact C).
    assert (He : e <> E_timeout) by (intros ->; apply Ht; left; reflexivity).
    pose proof (rinv_all _ _ _ HG) as HR0. destruct (IH HR0 Ht0) as (K1 & K2 & K3). clear IH.
    destruct (stage_step _ _ _ E He) as [(Es & Ev)|(Er & Ee & Eg & HC)].
    + unfold kept. rewrite Es, Ev. split; [|split].
      * destruct (d_stage t) eqn:Hs; auto; (apply (no_lock_step _ _ _ E); [congruence|exact K1]).
      * intros N. specialize (K2 N). destruct (eff_step _ _ _ E) as [(_ & ->)|[(? & ? & ? & _ & _ & _ & ->)|(? & ? & ? & _ & C & _)]]; congruence.
      * intros P i r ts x Hr Hp Hx.
        assert (N : existsb has_lock (d_reqs t) = false) by (destruct (d_stage t) as [| | |[|]| |]; try discriminate P; exact K1).
        assert (U : d_stage t <> S_up) by (intros C; rewrite C in P; discriminate P).
        destruct (no_lock_step _ _ _ E U N) as (_ & H). destruct (H i r ts Hr Hp) as (r0 & Hr0 & Hp0). apply (K3 P i r0 ts x Hr0 Hp0 Hx).
    + unfold kept. rewrite Er, Eg.
      destruct HC as [(S1 & S2 & V)|[(S1 & S2 & L & V)|[(S1 & S2 & V)|[(S1 & S2 & V)|[(S1 & S2 & V)|(S1 & S2 & V)]]]]]; rewrite S1 in K1, K2, K3; rewrite S2, V.
      * split; [exact Logic.I|]. split; [intros _; apply K2; discriminate|intros C; discriminate C].
      * split; [exact L|]. split; [intros _; apply K2; discriminate|intros C; discriminate C].
      * split; [exact K1|]. split; [intros _; apply K2; discriminate|intros C; discriminate C].
      * split; [exact K1|]. split; [intros _; apply K2; discriminate|]. intros _ i r ts x Hr Hp Hx.
        destruct (HR0 i r Hr) as (A & _ & _ & D). rewrite Hp in A. destruct A as (_ & ->).
        destruct (D x Hx) as [H|H]; [exact H|]. rewrite (K2 ltac:(discriminate)) in H. destruct H.
      * split; [exact K1|]. split; [intros _; apply K2; discriminate|exact K3].
      * split; [exact K1|]. split; [congruence|exact K3].
Qed.
Lemma c64_kept max tr s i r ts t : dexec max tr s -> in_time tr -> d_stage s = S_closed ->
  nth_error (d_reqs s) i = Some r -> r_pc r = P_end (A_ok ts) -> In t ts -> In (i, t) (d_saved s).
Proof. intros HX Ht Hs. destruct (kept_all _ _ _ HX Ht) as (_ & _ & K). rewrite Hs in K. intros Hr Hp Hx. apply (K eq_refl i r ts t Hr Hp Hx). Qed.
(** when the last save begins no request is at work, and none will be *)
Lemma c64_quiet max tr s i r b : dexec max tr s -> in_time tr -> d_stage s = S_save b \/ d_stage s = S_close \/ d_stage s = S_closed ->
  nth_error (d_reqs s) i = Some r -> r_pc r = P_new \/ exists a, r_pc r = P_end a.
Proof.
  intros HX Ht Hs Hr. destruct (kept_all _ _ _ HX Ht) as (K & _ & _).
  assert (N : existsb has_lock (d_reqs s) = false) by (destruct Hs as [Hs|[Hs|Hs]]; rewrite Hs in K; exact K).
  pose proof (no_lock _ _ _ N Hr) as L. unfold has_lock in L. destruct (r_pc r) as [| |todo|a]; eauto; discriminate.
Qed.
(** success is told only of what was done *)
Lemma c64_truth max tr s i r ts : dexec max tr s -> nth_error (d_reqs s) i = Some r -> r_pc r = P_end (A_ok ts) ->
  (forall t, In t ts <-> In (i, t) (d_eff s) \/ In (i, t) (d_gone s)) /\ r_going r = [].
Proof.
  intros HX Hr Hp. destruct (rinv_all _ _ _ HX i r Hr) as (A & _ & _ & D). rewrite Hp in A. destruct A as (G & ->). split; [|exact G].
  intros t. split; [apply D|]. intros H. destruct (owned_all _ _ _ HX i t H) as (r' & Hr' & Hd). congruence.
Qed.

(** ** The shutdown ends *)
Definition stage_w (g : stage) : nat := match g with S_up => 6 | S_pre => 5 | S_first => 4 | S_save false => 3 | S_save true => 2 | S_close => 1 | S_closed => 0 end.
Definition req_w (r : req) : nat :=
  match r_pc r with P_new => 3 + 6 * length (r_tasks r) | P_in => 2 + 6 * length (r_tasks r) | P_run ts => 1 + 6 * length ts | P_end _ => 0 end + 4 * length (r_going r).
Definition sumw (l : list req) : nat := fold_right (fun r n => req_w r + n) 0 l.
Definition weight (s : dst) : nat :=
  sumw (d_reqs s) + 2 * d_queue s + (if d_pass s then 1 else 0) + (if d_told s then 0 else 1) + stage_w (d_stage s).
Lemma sumw_put x : forall l i r, nth_error l i = Some r -> sumw (upd_nth i (fun _ => x) l) + req_w r = sumw l + req_w x.
Proof.
  induction l as [|y l IH]; intros [|i] r E; try discriminate; cbn [nth_error upd_nth sumw fold_right] in *.
  - injection E as ->. lia.
  - specialize (IH i r E). unfold sumw in IH. lia.
Qed.
Lemma take_out_len t l : In t l -> S (length (take_out t l)) = length l.
Proof.
  induction l as [|x l IH]; intros H; [destruct H|]. cbn [take_out length]. destruct (x =? t) eqn:E; [reflexivity|].
  apply Nat.eqb_neq in E. destruct H as [H|H]; [congruence|]. cbn [length]. rewrite (IH H). reflexivity.
Qed.
Lemma weight_step s e s' : dnext s e = Some s' -> own e -> weight s' < weight s.
Proof.
  intros E Ho.
  assert (G : forall r, d_reqs (give_back s r) = d_reqs s /\ d_queue (give_back s r) = d_queue s /\ d_pass (give_back s r) = d_pass s /\ d_told (give_back s r) = d_told s /\ d_stage (give_back s r) = d_stage s)
    by (intros r; unfold give_back; destruct (limited s && has_token r); auto).
  unfold weight. destruct e; try contradiction; dn E;
    cbn [set_req set_reqs set_stage set_bg set_free d_reqs d_queue d_pass d_told d_stage];
    try (destruct (G r) as (-> & -> & -> & -> & ->));
    try match goal with Hr : nth_error _ ?i = Some ?r |- context [sumw (upd_nth ?i (fun _ => ?x) _)] =>
      pose proof (sumw_put x _ _ _ Hr) as C; unfold req_w in C; cbn [at_pc at_work r_pc r_tasks r_going] in C;
      try match goal with Hp : r_pc r = _ |- _ => rewrite Hp in C end end;
    try match goal with Hb : existsb (Nat.eqb ?t) ?l = true |- _ => pose proof (take_out_len t l (going_in _ _ Hb)) end;
    repeat match goal with Hs : d_stage s = _ |- _ => rewrite Hs in *; clear Hs end;
    repeat match goal with H : _ && _ = true |- _ => apply andb_true_iff in H as (? & ?) end;
    repeat match goal with H : negb _ = true |- _ => apply negb_true_iff in H end;
    repeat match goal with H : d_pass s = _ |- _ => rewrite H in *; clear H end;
    repeat match goal with H : d_told s = _ |- _ => rewrite H in *; clear H end;
    repeat match goal with H : d_queue s = _ |- _ => rewrite H in *; clear H end;
    cbn [length stage_w] in *; lia.
Qed.

Lemma c64_bounded s tr s' : dgoes s tr s' -> Forall own tr -> length tr <= weight s.
Proof.
  intros HG Ho. enough (H : length tr + weight s' <= weight s) by lia.
  induction HG as [|tr t e t' HG IH E]; [cbn; lia|]. inversion Ho as [|? ? O1 O2]; subst. specialize (IH O2). pose proof (weight_step _ _ _ E O1). cbn [length]. lia.
Qed.

(** whatever state the server is in: either its requests are answered and the store is closed, or it can go on *)
Lemma c64_goes_on s : d_stage s <> S_up ->
  (exists e s', own e /\ dnext s e = Some s') \/ (d_stage s = S_closed /\ Forall ended (d_reqs s)).
Proof.
  intros Hs. destruct (d_told s) eqn:Ht.
  2: { left. exists E_told. cbn [dnext]. rewrite Ht. destruct (d_stage s); try congruence; eexists; split; [exact Logic.I|reflexivity| | | | | | | |]; try exact Logic.I; reflexivity. }
  assert (HR : forall i r, nth_error (d_reqs s) i = Some r -> ended r \/ exists e s', own e /\ dnext s e = Some s').
  { intros i r Hr. destruct (r_going r) as [|t g] eqn:Hg.
    - destruct (r_pc r) as [| |[|t ts]|a] eqn:Hp.
      + right. exists (E_lock i). eexists. split; [exact Logic.I|]. cbn [dnext]. rewrite Hr, Hp. reflexivity.
      + right. destruct (limited s && r_upd r) eqn:L.
        * exists (E_refused i). eexists. split; [exact Logic.I|]. cbn [dnext]. rewrite Hr, Hp, L, Ht. reflexivity.
        * exists (E_token i). eexists. split; [exact Logic.I|]. cbn [dnext]. rewrite Hr, Hp, L. reflexivity.
      + right. exists (E_answer i). eexists. split; [exact Logic.I|]. cbn [dnext]. rewrite Hr, Hp, Hg. reflexivity.
      + right. destruct (r_multi r && r_cancel r) eqn:M.
        * exists (E_abandon i). eexists. split; [exact Logic.I|]. cbn [dnext]. rewrite Hr, Hp, M. reflexivity.
        * exists (E_begin i). eexists. split; [exact Logic.I|]. cbn [dnext]. rewrite Hr, Hp, M. reflexivity.
      + left. split; [exists a; exact Hp|exact Hg].
    - right. exists (E_fail i t). eexists. split; [exact Logic.I|]. cbn [dnext]. rewrite Hr, Hg. cbn [existsb]. rewrite Nat.eqb_refl. reflexivity. }
  assert (HF : Forall ended (d_reqs s) \/ exists e s', own e /\ dnext s e = Some s').
  { assert (X : forall l, incl l (d_reqs s) -> Forall ended l \/ exists e s', own e /\ dnext s e = Some s').
    { induction l as [|r l IH]; intros I; [left; constructor|]. destruct (IH (fun x H => I x (or_intror H))) as [F|F]; [|right; exact F].
      destruct (In_nth_error _ _ (I r (or_introl eq_refl))) as (i & Hi). destruct (HR i r Hi) as [H|H]; [left; constructor; assumption|right; exact H]. }
    apply X, incl_refl. }
  destruct HF as [HF|HF]; [|left; exact HF].
  assert (HL : existsb has_lock (d_reqs s) = false).
  { destruct (existsb has_lock (d_reqs s)) eqn:X; [|reflexivity]. apply existsb_exists in X as (r & Hin & Hl). rewrite Forall_forall in HF.
    destruct (HF r Hin) as ((a & Hp) & _). unfold has_lock in Hl. rewrite Hp in Hl. discriminate. }
  destruct (d_stage s) as [| | |[|]| |] eqn:Es; try congruence.
  - left. exists E_locks. eexists. split; [exact Logic.I|]. cbn [dnext]. rewrite Es, Ht, HL. reflexivity.
  - left. destruct (d_pass s) eqn:Hp.
    + exists E_passed. eexists. split; [exact Logic.I|]. cbn [dnext]. rewrite Hp. reflexivity.
    + exists E_stopped. eexists. split; [exact Logic.I|]. cbn [dnext]. rewrite Es, Hp. reflexivity.
  - left. exists E_saved. eexists. split; [exact Logic.I|]. cbn [dnext]. rewrite Es. reflexivity.
  - left. exists E_save. eexists. split; [exact Logic.I|]. cbn [dnext]. rewrite Es. reflexivity.
  - left. exists E_close. eexists. split; [exact Logic.I|]. cbn [dnext]. rewrite Es. reflexivity.
  - right. auto.
Qed.
Lemma c64_drains s : d_stage s <> S_up ->
  (exists n, forall tr s', dgoes s tr s' -> Forall own tr -> length tr <= n) /\
  forall tr s', dgoes s tr s' -> Forall own tr -> (forall e s'', own e -> dnext s' e <> Some s'') -> d_stage s' = S_closed /\ Forall ended (d_reqs s').
Proof.
  intros Hs. split; [exists (weight s); intros tr s'; apply c64_bounded|]. intros tr s' HG Ho HN.
  destruct (c64_goes_on s' (down_stays _ _ _ HG Hs)) as [(e & s'' & Oe & E)|H]; [|exact H]. destruct (HN e s'' Oe E).
Qed.

(** running events, for the cases *)
Fixpoint drun (s : dst) (es : list devent) : option dst :=
  match es with [] => Some s | e :: r => match dnext s e with Some s' => drun s' r | None => None end end.
Lemma drun_goes : forall es s tr t s', dgoes s tr t -> drun t es = Some s' -> dgoes s (rev es ++ tr) s'.
Proof.
  induction es as [|e es IH]; intros s tr t s' HG H; cbn [drun rev app] in *; [injection H as <-; exact HG|].
  destruct (dnext t e) as [u|] eqn:E; [|discriminate]. rewrite <- app_assoc. cbn [app]. apply (IH s (e :: tr) u s'); [apply (D_next s tr t e u HG E)|exact H].
Qed.
Lemma drun_exec max es s : drun (dinit max) es = Some s -> dexec max (rev es) s.
Proof. intros H. pose proof (drun_goes es _ [] _ s (D_nil _) H) as G. rewrite app_nil_r in G. exact G. Qed.
