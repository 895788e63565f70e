From Coq Require Import Strings.String Strings.Ascii Strings.Byte.
From Verif.Lib Require Import Prelude ListAux Bytes.
From Verif.Model Require Import Element Elements Segment List Msgp Codec Keys Storage Backup Job Ship FileDest.
From Verif.Spec Require Import RankSpec QuerySpec HistorySpec AnswerSpec CodecSpec StorageSpec BackupSpec JobSpec ShipSpec FileDestSpec.
From Verif.Proof Require Import BackupP JobP ShipP.
Open Scope nat_scope.

(** ** files *)
Lemma nth_repeat_some {A} (x : A) n k : k < n -> nth_error (repeat x n) k = Some x.
Proof. revert k. induction n as [|n IH]; intros [|k] H; try lia; [reflexivity|]. cbn. apply IH. lia. Qed.
Lemma nth_ext_opt {A} (a b : list A) : (forall n, nth_error a n = nth_error b n) -> a = b.
Proof.
  revert b. induction a as [|x a IH]; intros [|y b] H; [reflexivity|discriminate (H 0)|discriminate (H 0)|].
  pose proof (H 0) as H0. cbn in H0. injection H0 as ->. f_equal. apply IH. intros n. exact (H (S n)).
Qed.
Lemma write_end f b : write_at (length f) b f = f ++ b.
Proof.
  destruct b as [|x b]; cbn [write_at]; [rewrite app_nil_r; reflexivity|].
  rewrite Nat.sub_diag. cbn [repeat]. rewrite app_nil_r, firstn_all, skipn_all2 by lia. rewrite app_nil_r. reflexivity.
Qed.
Lemma nth_firstn {A} (l : list A) n k : k < n -> nth_error (firstn n l) k = nth_error l k.
Proof. revert n k. induction l as [|x l IH]; intros [|n] [|k] H; try lia; try reflexivity. cbn. apply IH. lia. Qed.
Lemma nth_skipn {A} (l : list A) n k : nth_error (skipn n l) k = nth_error l (n + k).
Proof. revert n k. induction l as [|x l IH]; intros [|n] k; try reflexivity; cbn; [destruct k; reflexivity|]. apply IH. Qed.
Lemma nth_write o b f k : b <> [] -> nth_error (write_at o b f) k =
  if k <? o then (if k <? length f then nth_error f k else Some Byte.x00)
  else if k <? o + length b then nth_error b (k - o) else nth_error f k.
Proof.
  intros Hb. unfold write_at. destruct b as [|x b]; [congruence|]. clear Hb. remember (x :: b) as b' eqn:E. clear E x b. rename b' into b.
  assert (L : length (firstn o (f ++ repeat Byte.x00 (o - length f))) = o) by (rewrite firstn_length, app_length, repeat_length; lia).
  destruct (Nat.ltb_spec k o) as [H|H].
  - rewrite nth_error_app1 by lia. rewrite nth_firstn by exact H. destruct (Nat.ltb_spec k (length f)) as [H1|H1].
    + apply nth_error_app1, H1.
    + rewrite nth_error_app2 by exact H1. apply nth_repeat_some. lia.
  - rewrite nth_error_app2 by lia. rewrite L. destruct (Nat.ltb_spec k (o + length b)) as [H1|H1].
    + apply nth_error_app1. lia.
    + rewrite nth_error_app2 by lia. rewrite nth_skipn. f_equal. lia.
Qed.
Lemma set_file_same k p v : set_file k p v p = v.
Proof. unfold set_file. rewrite String.eqb_refl. reflexivity. Qed.
Lemma set_file_other k p v q : q <> p -> set_file k p v q = k q.
Proof. intros H. unfold set_file. destruct (String.eqb_spec q p); [congruence|reflexivity]. Qed.

(** ** jobs *)
Lemma set_same i y l : i < length l -> nth_error (set_job i y l) i = Some y.
Proof. revert i. induction l as [|a l IH]; intros [|i] H; cbn in *; try lia; [reflexivity|]. apply IH. lia. Qed.
Lemma set_other i y l j : j <> i -> nth_error (set_job i y l) j = nth_error l j.
Proof. revert i j. induction l as [|a l IH]; intros [|i] [|j] H; cbn; try reflexivity; try congruence. apply IH. congruence. Qed.

(** what a step does to the jobs and to the files *)
Lemma ffire_new z s p ids m s' : ffire z s (F_new p ids m) = Some s' ->
  f_disk s' = f_disk s /\ (forall j a, job_at s j a -> job_at s' j a) /\
  (forall j a, job_at s' j a -> job_at s j a \/ a = mkFJ p ids m [] (jstart m)).
Proof.
  cbn [ffire]. intros E. injection E as <-. unfold job_at. cbn [f_jobs f_disk]. split; [reflexivity|]. split; intros j a H.
  - rewrite nth_error_app1; [exact H|]. apply nth_error_Some. congruence.
  - destruct (Nat.lt_ge_cases j (length (f_jobs s))) as [L|L].
    + rewrite nth_error_app1 in H by exact L. left. exact H.
    + rewrite nth_error_app2 in H by exact L. right. destruct (j - length (f_jobs s)) as [|[|q]]; cbn in H; congruence.
Qed.
Lemma ffire_job z s i x s' : ffire z s (F_job i x) = Some s' -> exists a e c', job_at s i a /\ jfire (fj_ids a) false (fj_c a) x = Some (e, c') /\
  job_at s' i (mkFJ (fj_path a) (fj_ids a) (fj_m a) (fj_tr a ++ jev e) c') /\ (forall j, j <> i -> nth_error (f_jobs s') j = nth_error (f_jobs s) j) /\
  f_disk s' = f_step z (f_disk s) (fj_path a) (fj_c a) x c'.
Proof.
  cbn [ffire]. destruct (nth_error (f_jobs s) i) as [a|] eqn:Ea; [|discriminate]. destruct (jfire _ _ _ _) as [[e c']|] eqn:Ef; [|discriminate].
  intros E. injection E as <-. exists a, e, c'. unfold job_at. cbn [f_jobs f_disk]. split; [exact Ea|]. split; [exact Ef|].
  split; [apply set_same, nth_error_Some; congruence|]. split; [|reflexivity]. intros j H. apply set_other, H.
Qed.

(** each job runs as in Model/Job.v *)
Definition jobs_ok (s : fcfg) : Prop := forall i a, job_at s i a -> jexec any_choice (fj_ids a) false (fj_m a) (fj_tr a) (fj_c a).
Lemma jobs_ok_step z s x s' : jobs_ok s -> ffire z s x = Some s' -> jobs_ok s'.
Proof.
  intros H E i b Hb. destruct x as [p ids m|j y].
  - destruct (ffire_new _ _ _ _ _ _ E) as (_ & _ & B). destruct (B i b Hb) as [X| ->]; [exact (H i b X)|]. constructor.
  - destruct (ffire_job _ _ _ _ _ E) as (a & e & c' & Ha & Ef & H' & HO & _). destruct (Nat.eq_dec i j) as [->|N].
    + unfold job_at in *. rewrite H' in Hb. injection Hb as <-. cbn [fj_ids fj_m fj_tr fj_c]. econstructor; [exact (H j a Ha)|exact Logic.I|exact Ef].
    + apply (H i b). unfold job_at in *. rewrite <- (HO i N). exact Hb.
Qed.
Lemma jobs_ok_goes z ok s s' : jobs_ok s -> fgoes z ok s s' -> jobs_ok s'.
Proof. intros H. induction 1 as [|s s1 x s2 HG IH Hx E]; [exact H|]. exact (jobs_ok_step _ _ _ _ (IH H) E). Qed.
Lemma jobs_ok_start k : jobs_ok (fstart k).
Proof. intros [|i] a H; discriminate H. Qed.
Lemma fgoes_mono z (P Q : fcfg -> fchoice -> Prop) s s' : (forall s x, P s x -> Q s x) -> fgoes z P s s' -> fgoes z Q s s'.
Proof. intros HI. induction 1; econstructor; eauto. Qed.
Lemma fgoes_trans z ok a b c : fgoes z ok a b -> fgoes z ok b c -> fgoes z ok a c.
Proof. intros H H2. revert H. induction H2 as [|s s1 x s2 HG IH Hx E]; intros H; [exact H|]. exact (Fg_step _ _ _ _ _ _ (IH H) Hx E). Qed.

Definition jobs_sound (s : fcfg) : Prop := forall i a, job_at s i a ->
  NoDup (fj_ids a) /\ sound_db (fj_m a) /\ jexec sound_lists (fj_ids a) false (fj_m a) (fj_tr a) (fj_c a).
Lemma jobs_sound_goes z s s' : jobs_sound s -> fgoes z sound_step s s' -> jobs_sound s'.
Proof.
  intros H. induction 1 as [|s s1 x s2 HG IH Hx E]; [exact H|]. specialize (IH H). intros i b Hb. destruct x as [p ids m|j y].
  - destruct (ffire_new _ _ _ _ _ _ E) as (_ & _ & B). destruct (B i b Hb) as [X| ->]; [exact (IH i b X)|]. destruct Hx as [N S].
    cbn [fj_ids fj_m fj_tr fj_c]. split; [exact N|]. split; [exact S|constructor].
  - destruct (ffire_job _ _ _ _ _ E) as (a & e & c' & Ha & Ef & H' & HO & _). destruct (Nat.eq_dec i j) as [->|N].
    + unfold job_at in *. rewrite H' in Hb. injection Hb as <-. cbn [fj_ids fj_m fj_tr fj_c]. destruct (IH j a Ha) as (A1 & A2 & A3).
      split; [exact A1|]. split; [exact A2|]. econstructor; [exact A3|exact Hx|exact Ef].
    + apply (IH i b). unfold job_at in *. rewrite <- (HO i N). exact Hb.
Qed.

(** ** a step of a job *)
Lemma no_flow ids ch c x e c' : jfire ids ch c x = Some (e, c') -> (forall n, x <> J_flow n) -> j_out c' = j_out c.
Proof.
  intros E H. destruct x as [ok n|n| |failed|m'| | |]; cbn [jfire] in E.
  - destruct c as [pc st m out pend bad cut hook]. cbn [j_pc j_st j_db j_out j_pend j_bad j_cut j_hook] in *.
    destruct pc as [|[|id rest]|id rest|id rest| | | |].
    + destruct ok; injection E as <- <-; reflexivity.
    + injection E as <- <-; reflexivity.
    + destruct cut; injection E as <- <-; reflexivity.
    + destruct (m id) as [[d l]|]; [destruct ok|]; injection E as <- <-; reflexivity.
    + destruct ok; [|destruct bad; [|discriminate]]; injection E as <- <-; reflexivity.
    + destruct ok; [|destruct bad; [|discriminate]]; injection E as <- <-; reflexivity.
    + destruct pend, bad; try discriminate; injection E as <- <-; reflexivity.
    + destruct ch; try discriminate; injection E as <- <-; reflexivity.
    + discriminate.
  - exfalso. exact (H n eq_refl).
  - injection E as <- <-; reflexivity.
  - destruct (j_pc c), ch; try discriminate; injection E as <- <-; reflexivity.
  - injection E as <- <-; reflexivity.
  - injection E as <- <-; reflexivity.
  - injection E as <- <-; reflexivity.
  - injection E as <- <-; reflexivity.
Qed.
Lemma creates_pc c x : creates c x = true -> j_pc c = JSave /\ exists n, x = J_go true n.
Proof. unfold creates. destruct (j_pc c); try discriminate. destruct x as [[] n| | | | | | |]; try discriminate. intros _. eauto. Qed.
Lemma creates_flow c n : creates c (J_flow n) = false.
Proof. unfold creates. destruct (j_pc c); reflexivity. Qed.
Lemma creates_fire ids ch c x e c' : creates c x = true -> jfire ids ch c x = Some (e, c') -> j_out c' = j_out c /\ j_pc c' <> JSave.
Proof.
  intros H E. destruct (creates_pc _ _ H) as (Ep & n & ->). cbn [jfire] in E. rewrite Ep in E. injection E as <- <-. cbn. split; [reflexivity|discriminate].
Qed.
(** a job that has not created its file has given nothing to it *)
Lemma save_empty ok ids ch m tr c : jexec ok ids ch m tr c -> j_pc c = JSave -> j_out c = [] /\ j_pend c = [].
Proof.
  induction 1 as [|tr c x e c' H IH Hx E]; intros Ep; [split; reflexivity|].
  destruct (jfire_out _ _ _ _ _ _ E) as (_ & _ & _ & _ & _ & _ & HP). specialize (IH (HP Ep)). destruct IH as [IO IP].
  destruct (jinv _ _ _ _ _ _ (Jx_step ok ids ch m _ _ _ _ _ H Hx E)) as [[S0 _ _ _ _ _] _]. split; [|exact (S0 Ep)].
  destruct x as [o n|n| |failed|m'| | |]; try (rewrite (no_flow _ _ _ _ _ _ E); [exact IO|discriminate]).
  cbn [jfire] in E. destruct (j_bad c); [discriminate|]. injection E as <- <-. cbn [j_out]. rewrite IO, IP, firstn_nil. reflexivity.
Qed.
Lemma z_grows z c c' b : adds z -> j_out c' = j_out c ++ b -> exists d, z (j_out c') = z (j_out c) ++ d /\ skipn (length (z (j_out c))) (z (j_out c')) = d.
Proof. intros (_ & A & _) E. rewrite E. destruct (A (j_out c) b) as [d Ed]. exists d. split; [exact Ed|]. rewrite Ed, skipn_app, skipn_all, Nat.sub_diag. reflexivity. Qed.
Lemma f_step_other z k p c x c' q : q <> p -> f_step z k p c x c' q = k q.
Proof. intros H. unfold f_step. destruct (creates c x); [apply set_file_other, H|]. destruct (k p); [apply set_file_other, H|reflexivity]. Qed.
Lemma f_step_still z k p c x c' : creates c x = false -> j_out c' = j_out c -> f_step z k p c x c' p = k p.
Proof.
  intros H E. unfold f_step. rewrite H. destruct (k p) as [f|] eqn:Ek; [|exact Ek]. rewrite set_file_same. unfold f_write.
  rewrite E, skipn_all. reflexivity.
Qed.

(** ** a job that has its file for itself *)
Lemma c86_alone z k s1 i a x s2 s3 : adds z -> fgoes z any_step (fstart k) s1 -> job_at s1 i a -> creates (fj_c a) x = true ->
  ffire z s1 (F_job i x) = Some s2 -> fgoes z (fun s y => ~ touches (fj_path a) i s y) s2 s3 ->
  exists a', job_at s3 i a' /\ fj_path a' = fj_path a /\ f_disk s3 (fj_path a) = Some (z (j_out (fj_c a'))).
Proof.
  intros Hz H1 Ha Hc E2 H3.
  cut (exists a', job_at s3 i a' /\ fj_path a' = fj_path a /\ j_pc (fj_c a') <> JSave /\ f_disk s3 (fj_path a) = Some (z (j_out (fj_c a')))).
  { intros (a' & A & B & _ & D). exists a'. auto. }
  remember (fj_path a) as p eqn:Ep.
  induction H3 as [s2|s2 s3 y s4 H3 IH Hy E4].
  - destruct (ffire_job _ _ _ _ _ E2) as (b & e & c' & Hb & Ef & H' & HO & D). unfold job_at in Ha, Hb. rewrite Ha in Hb. injection Hb as <-.
    destruct (creates_fire _ _ _ _ _ _ Hc Ef) as [EO NP].
    destruct (creates_pc _ _ Hc) as [Epc _]. destruct (save_empty _ _ _ _ _ _ (jobs_ok_goes _ _ _ _ (jobs_ok_start k) H1 i a Ha) Epc) as [EO0 _].
    eexists. split; [exact H'|]. cbn [fj_path fj_c]. split; [congruence|]. split; [exact NP|].
    rewrite D, Ep. unfold f_step. rewrite Hc, set_file_same, EO, EO0. destruct Hz as [-> _]. reflexivity.
  - destruct (IH E2) as (a' & Ha' & Hp & NP & Hd). destruct y as [q ids m|j y].
    + destruct (ffire_new _ _ _ _ _ _ E4) as (D & A & _). exists a'. split; [exact (A _ _ Ha')|]. rewrite D. auto.
    + destruct (ffire_job _ _ _ _ _ E4) as (b & e & c' & Hb & Ef & H' & HO & D). destruct (Nat.eq_dec j i) as [->|N].
      * unfold job_at in Ha', Hb. rewrite Ha' in Hb. injection Hb as <-. eexists. split; [exact H'|]. cbn [fj_path fj_c]. split; [exact Hp|].
        destruct (jfire_out _ _ _ _ _ _ Ef) as (bs & EO & _ & _ & _ & _ & HP). split; [intros X; exact (NP (HP X))|].
        assert (NC : creates (fj_c a') y = false). { destruct (creates (fj_c a') y) eqn:X; [|reflexivity]. destruct (creates_pc _ _ X). congruence. }
        rewrite D, Hp. unfold f_step. rewrite NC, Hd, set_file_same. unfold f_write. destruct (z_grows z _ _ _ Hz EO) as (d & E1 & ->). rewrite write_end, <- E1. reflexivity.
      * exists a'. split; [unfold job_at; rewrite (HO i); [exact Ha'|congruence]|]. split; [exact Hp|]. split; [exact NP|]. rewrite D.
        destruct (string_dec p (fj_path b)) as [Eq|Nq]; [|rewrite f_step_other by exact Nq; exact Hd].
        assert (T : creates (fj_c b) y = false /\ forall n, y <> J_flow n).
        { split.
          - destruct (creates (fj_c b) y) eqn:X; [|reflexivity]. exfalso. apply Hy. exists j, b, y. split; [reflexivity|]. split; [exact N|]. split; [exact Hb|]. split; [congruence|]. left. exact X.
          - intros n ->. apply Hy. exists j, b, (J_flow n). split; [reflexivity|]. split; [exact N|]. split; [exact Hb|]. split; [congruence|]. right. eauto. }
        destruct T as [T1 T2]. rewrite Eq, f_step_still; [rewrite <- Eq; exact Hd|exact T1|]. exact (no_flow _ _ _ _ _ _ Ef T2).
Qed.

Lemma c86_restore z unz k s1 i a x s2 s3 fr : adds z -> gives_back z unz -> (forall n, given_ok (fr n)) -> fgoes z sound_step (fstart k) s1 -> job_at s1 i a ->
  creates (fj_c a) x = true -> ffire z s1 (F_job i x) = Some s2 -> fgoes z (fun s y => sound_step s y /\ ~ touches (fj_path a) i s y) s2 s3 ->
  exists a', job_at s3 i a' /\ fj_path a' = fj_path a /\
    (file_restores unz fr (f_disk s3 (fj_path a)) (as_read (fj_tr a')) (read_ids (fj_tr a')) \/
     file_stops unz fr (f_disk s3 (fj_path a)) (as_read (fj_tr a')) (read_ids (fj_tr a'))) /\
    (over (fj_c a') -> t_cancelled (j_st (fj_c a')) = false -> opened (fj_c a') -> j_bad (fj_c a') = false ->
     file_restores unz fr (f_disk s3 (fj_path a)) (as_read (fj_tr a')) (t_success (j_st (fj_c a')))).
Proof.
  intros Hz Hu Hfr H1 Ha Hc E2 H3.
  destruct (c86_alone z k s1 i a x s2 s3 Hz (fgoes_mono _ _ any_step _ _ (fun _ _ _ => Logic.I) H1) Ha Hc E2 (fgoes_mono _ _ _ _ _ (fun _ _ X => proj2 X) H3))
    as (a' & Ha' & Hp & Hd).
  exists a'. split; [exact Ha'|]. split; [exact Hp|].
  assert (SX : sound_step s1 (F_job i x)) by (destruct (creates_pc _ _ Hc) as (_ & n & ->); exact Logic.I).
  assert (G : fgoes z sound_step (fstart k) s3).
  { eapply fgoes_trans; [econstructor; [exact H1|exact SX|exact E2]|]. exact (fgoes_mono _ _ _ _ _ (fun _ _ X => proj1 X) H3). }
  assert (J0 : jobs_sound (fstart k)) by (intros [|q] b X; discriminate X).
  destruct (jobs_sound_goes _ _ _ J0 G i a' Ha') as (ND & Sm & HJ). rewrite Hd. unfold file_restores, file_stops, restore_file. rewrite Hu.
  pose proof (jinv _ _ _ _ _ _ HJ) as [_ T].
  assert (NR : NoDup (read_ids (fj_tr a'))) by (eapply sub_nodup; [exact (reads_sub _ _ _ T)|exact ND]).
  split.
  - destruct (c60_stream _ _ _ _ _ (jexec_any _ _ _ _ _ _ HJ)) as [b E]. rewrite <- (job_read _ NR) in E. destruct b as [|y b].
    + left. intros pre suf rep m0. rewrite app_nil_r in E. rewrite <- E.
      destruct (c46_job (as_read (fj_tr a')) (read_ids (fj_tr a')) fr pre suf rep m0 [] (as_read_sound _ _ _ _ _ Sm HJ) Hfr) as (r & s & m' & X & B & N & _).
      rewrite app_nil_r in X. exists r, s, m'. rewrite (found_all _ _ (as_read_some _)) in N. auto.
    + right. intros pre suf rep m0. exact (c46_cut _ _ fr pre suf rep m0 _ _ (as_read_sound _ _ _ _ _ Sm HJ) Hfr E ltac:(discriminate)).
  - intros HO HC Hop HB pre suf rep m0.
    destruct (c60_complete _ _ _ _ _ fr pre suf rep m0 ND Sm Hfr HJ HO HC Hop HB) as (_ & r & s & m' & X & B & N & _). exists r, s, m'. auto.
Qed.

(** ** any number of jobs on one path *)
Definition from (z : wire -> wire) (s : fcfg) (p : string) (n : nat) (b : byte) : Prop :=
  exists j a, job_at s j a /\ fj_path a = p /\ nth_error (z (j_out (fj_c a))) n = Some b.
Lemma from_step z s x s' p n b : adds z -> ffire z s x = Some s' -> from z s p n b -> from z s' p n b.
Proof.
  intros Hz E (j & a & Ha & Hp & Hn). destruct x as [q ids m|i y].
  - destruct (ffire_new _ _ _ _ _ _ E) as (_ & A & _). exists j, a. auto.
  - destruct (ffire_job _ _ _ _ _ E) as (a0 & e & c' & Hb & Ef & H' & HO & _). destruct (Nat.eq_dec j i) as [->|N].
    + unfold job_at in Ha, Hb. rewrite Ha in Hb. injection Hb as <-. eexists i, _. split; [exact H'|]. cbn [fj_path fj_c]. split; [exact Hp|].
      destruct (jfire_out _ _ _ _ _ _ Ef) as (bs & EO & _). destruct (z_grows z _ _ _ Hz EO) as (d & E1 & _). rewrite E1, nth_error_app1; [exact Hn|].
      apply nth_error_Some. congruence.
    + exists j, a. split; [unfold job_at; rewrite (HO j N); exact Ha|auto].
Qed.
(** the file that the bytes come from, after a write *)
Lemma bytes_write z s i y s2 a e c' g : adds z -> ffire z s (F_job i y) = Some s2 -> job_at s i a -> jfire (fj_ids a) false (fj_c a) y = Some (e, c') ->
  job_at s2 i (mkFJ (fj_path a) (fj_ids a) (fj_m a) (fj_tr a ++ jev e) c') ->
  (forall n b, nth_error g n = Some b -> b = Byte.x00 \/ from z s (fj_path a) n b) ->
  forall n b, nth_error (f_write z (fj_c a) c' g) n = Some b -> b = Byte.x00 \/ from z s2 (fj_path a) n b.
Proof.
  intros Hz E Ha Ef H' IH n b. destruct (jfire_out _ _ _ _ _ _ Ef) as (bs & EO & _). destruct (z_grows z _ _ _ Hz EO) as (d & E1 & E2). unfold f_write. rewrite E2.
  assert (IG : forall n b, nth_error g n = Some b -> b = Byte.x00 \/ from z s2 (fj_path a) n b).
  { intros n' b' X. destruct (IH n' b' X) as [->|Y]; [left; reflexivity|right; exact (from_step _ _ _ _ _ _ _ Hz E Y)]. }
  destruct d as [|d0 d]; [exact (IG n b)|]. intros Hn. rewrite nth_write in Hn by discriminate.
  destruct (Nat.ltb_spec n (length (z (j_out (fj_c a))))) as [L1|L1].
  - destruct (n <? length g); [exact (IG n b Hn)|]. left. congruence.
  - destruct (n <? _); [|exact (IG n b Hn)]. right. eexists i, _. split; [exact H'|]. cbn [fj_path fj_c]. split; [reflexivity|].
    rewrite E1, nth_error_app2 by lia. exact Hn.
Qed.
Lemma c86_bytes z k s1 i a x s2 s3 f n b : adds z -> fgoes z any_step (fstart k) s1 -> job_at s1 i a -> creates (fj_c a) x = true ->
  ffire z s1 (F_job i x) = Some s2 -> fgoes z any_step s2 s3 -> f_disk s3 (fj_path a) = Some f -> nth_error f n = Some b ->
  b = Byte.x00 \/ exists j a', job_at s3 j a' /\ fj_path a' = fj_path a /\ nth_error (z (j_out (fj_c a'))) n = Some b.
Proof.
  intros Hz H1 Ha Hc E2 H3 Hf. revert n b. change (forall n b, nth_error f n = Some b -> b = Byte.x00 \/ from z s3 (fj_path a) n b). revert f Hf.
  remember (fj_path a) as p eqn:Ep. induction H3 as [s2|s2 s3 y s4 H3 IH _ E4]; intros f Hf.
  - destruct (ffire_job _ _ _ _ _ E2) as (b & e & c' & Hb & Ef & H' & HO & D). unfold job_at in Ha, Hb. rewrite Ha in Hb. injection Hb as <-.
    rewrite D, Ep in Hf. unfold f_step in Hf. rewrite Hc, set_file_same in Hf. injection Hf as <-. intros [|n] b X; discriminate X.
  - specialize (IH E2). destruct y as [q ids m|j y].
    + pose proof (ffire_new _ _ _ _ _ _ E4) as (D & _). rewrite D in Hf. intros n b Hn. destruct (IH f Hf n b Hn) as [->|X]; [left; reflexivity|right; exact (from_step _ _ _ _ _ _ _ Hz E4 X)].
    + destruct (ffire_job _ _ _ _ _ E4) as (b & e & c' & Hb & Ef & H' & HO & D). rewrite D in Hf. destruct (string_dec p (fj_path b)) as [Eq|Nq].
      * rewrite Eq in Hf, IH |- *. unfold f_step in Hf. destruct (creates (fj_c b) y).
        -- rewrite set_file_same in Hf. injection Hf as <-. intros [|n] v X; discriminate X.
        -- destruct (f_disk s3 (fj_path b)) as [g|] eqn:Eg; [|congruence]. rewrite set_file_same in Hf. injection Hf as <-.
           exact (bytes_write z s3 j y s4 b e c' g Hz E4 Hb Ef H' (IH g eq_refl)).
      * rewrite f_step_other in Hf by exact Nq. intros n v Hn. destruct (IH f Hf n v Hn) as [->|X]; [left; reflexivity|right; exact (from_step _ _ _ _ _ _ _ Hz E4 X)].
Qed.

(** ** nobody creates the file *)
Definition unopened (c : jcfg) : Prop := j_out c = [] /\ j_pend c = [] /\ (j_pc c = JSave \/ closed c = true).
Lemma unopened_step ids c x e c' : unopened c -> creates c x = false -> jfire ids false c x = Some (e, c') -> unopened c'.
Proof.
  intros (O & P & Q) C E. destruct (jfire_out _ _ _ _ _ _ E) as (b & EO & HC & _). destruct Q as [Q|Q].
  - destruct x as [[] n|n| |failed|m'| | |]; cbn [jfire] in E; unfold creates in C; rewrite Q in *; try discriminate.
    + injection E as <- <-. unfold unopened. cbn. auto.
    + destruct (j_bad c); [discriminate|]. injection E as <- <-. unfold unopened. cbn [j_out j_pend j_pc]. rewrite O, P, firstn_nil, skipn_nil. auto.
    + injection E as <- <-. unfold unopened. cbn. auto.
    + injection E as <- <-. unfold unopened. cbn. auto.
    + injection E as <- <-. unfold unopened. cbn. auto.
    + injection E as <- <-. unfold unopened. cbn. auto.
    + injection E as <- <-. unfold unopened. cbn. auto.
  - destruct (HC Q) as [HC1 HC2]. destruct (HC2 P) as [-> HP]. unfold unopened. rewrite EO, O. auto.
Qed.
Lemma c86_kept z k s p : adds z -> fgoes z (fun s x => forall i a y, x = F_job i y -> job_at s i a -> fj_path a = p -> creates (fj_c a) y = false) (fstart k) s ->
  f_disk s p = k p.
Proof.
  intros Hz H. cut (f_disk s p = k p /\ forall j a, job_at s j a -> fj_path a = p -> unopened (fj_c a)); [intros [A _]; exact A|].
  remember (fstart k) as s0 eqn:E0. induction H as [s|s s1 x s2 H IH Hx E]; subst.
  - split; [reflexivity|]. intros [|j] a X; discriminate X.
  - destruct (IH eq_refl) as [ID IU]. destruct x as [q ids m|i y].
    + destruct (ffire_new _ _ _ _ _ _ E) as (D & A & B). rewrite D. split; [exact ID|]. intros j b Hb Hp.
      destruct (B j b Hb) as [X| ->]; [exact (IU j b X Hp)|]. unfold unopened. cbn. auto.
    + destruct (ffire_job _ _ _ _ _ E) as (a & e & c' & Ha & Ef & H' & HO & D). rewrite D. split.
      * destruct (string_dec p (fj_path a)) as [->|N]; [|rewrite f_step_other by exact N; exact ID].
        pose proof (Hx i a y eq_refl Ha eq_refl) as C. rewrite f_step_still; [exact ID|exact C|].
        destruct (unopened_step _ _ _ _ _ (IU i a Ha eq_refl) C Ef) as [-> _]. destruct (IU i a Ha eq_refl) as [-> _]. reflexivity.
      * intros j b Hb Hp. destruct (Nat.eq_dec j i) as [->|N].
        -- unfold job_at in Hb, H'. rewrite H' in Hb. injection Hb as <-. cbn [fj_path fj_c] in *.
           exact (unopened_step _ _ _ _ _ (IU i a Ha Hp) (Hx i a y eq_refl Ha Hp) Ef).
        -- apply (IU j b); [|exact Hp]. unfold job_at in *. rewrite <- (HO j N). exact Hb.
Qed.

(** ** jobs that write the same *)
Lemma c86_same z k s1 i a x s2 s3 a' S : adds z -> fgoes z any_step (fstart k) s1 -> job_at s1 i a -> creates (fj_c a) x = true ->
  ffire z s1 (F_job i x) = Some s2 -> fgoes z (fun s y => ~ reopens (fj_path a) i s y) s2 s3 ->
  (forall j b, job_at s3 j b -> fj_path b = fj_path a -> exists r, S = z (j_out (fj_c b)) ++ r) ->
  job_at s3 i a' -> z (j_out (fj_c a')) = S -> f_disk s3 (fj_path a) = Some S.
Proof.
  intros Hz H1 Ha Hc E2 H3 HS Ha' EA.
  cut (exists f, f_disk s3 (fj_path a) = Some f /\ exists b, job_at s3 i b /\ fj_path b = fj_path a /\ j_pc (fj_c b) <> JSave /\
    (forall n, n < length (z (j_out (fj_c b))) -> exists v, nth_error f n = Some v /\ from z s3 (fj_path a) n v) /\
    (forall n v, nth_error f n = Some v -> exists v', from z s3 (fj_path a) n v')).
  { intros (f & Hf & b & Hb & Pb & _ & HA & HB). unfold job_at in Ha', Hb. rewrite Ha' in Hb. injection Hb as <-. rewrite Hf. f_equal. rewrite EA in HA.
    assert (FS : forall n v, from z s3 (fj_path a) n v -> nth_error S n = Some v).
    { intros n v (j & b & X & Y & Z). destruct (HS j b X Y) as [r ->]. rewrite nth_error_app1; [exact Z|]. apply nth_error_Some. congruence. }
    apply nth_ext_opt. intros n. destruct (Nat.lt_ge_cases n (length S)) as [L|L].
    - destruct (HA n L) as (v & -> & X). symmetry. exact (FS n v X).
    - rewrite (proj2 (nth_error_None S n) L). destruct (nth_error f n) as [v|] eqn:En; [|reflexivity].
      destruct (HB n v En) as [v' X]. apply FS in X. apply nth_error_None in L. congruence. }
  clear HS Ha' EA a'. remember (fj_path a) as p eqn:Ep. induction H3 as [s2|s2 s3 y s4 H3 IH Hy E4].
  - destruct (ffire_job _ _ _ _ _ E2) as (b & e & c' & Hb & Ef & H' & HO & D). unfold job_at in Ha, Hb. rewrite Ha in Hb. injection Hb as <-.
    destruct (creates_fire _ _ _ _ _ _ Hc Ef) as [EO NP].
    destruct (creates_pc _ _ Hc) as [Epc _]. destruct (save_empty _ _ _ _ _ _ (jobs_ok_goes _ _ _ _ (jobs_ok_start k) H1 i a Ha) Epc) as [EO0 _].
    exists []. split; [rewrite D, Ep; unfold f_step; rewrite Hc, set_file_same; reflexivity|]. eexists. split; [exact H'|]. cbn [fj_path fj_c].
    split; [congruence|]. split; [exact NP|]. rewrite EO, EO0. destruct Hz as (Z0 & _). rewrite Z0. split; [cbn; lia|]. intros [|n] v X; discriminate X.
  - destruct (IH E2) as (f & Hf & b & Hb & Pb & NP & HA & HB). destruct y as [q ids m|j y].
    + pose proof (ffire_new _ _ _ _ _ _ E4) as (D & A & _). exists f. rewrite D. split; [exact Hf|]. exists b. split; [exact (A _ _ Hb)|].
      split; [exact Pb|]. split; [exact NP|]. split.
      * intros n L. destruct (HA n L) as (v & X & Y). exists v. split; [exact X|exact (from_step _ _ _ _ _ _ _ Hz E4 Y)].
      * intros n v X. destruct (HB n v X) as [v' Y]. exists v'. exact (from_step _ _ _ _ _ _ _ Hz E4 Y).
    + destruct (ffire_job _ _ _ _ _ E4) as (b0 & e & c' & Hb0 & Ef & H' & HO & D).
      destruct (jfire_out _ _ _ _ _ _ Ef) as (bs & EO & _ & _ & _ & _ & HP). destruct (z_grows z _ _ _ Hz EO) as (d & E1 & Ed).
      assert (HA' : forall n, n < length (z (j_out (fj_c b))) -> exists v, nth_error f n = Some v /\ from z s4 p n v).
      { intros n L. destruct (HA n L) as (v & X & Y). exists v. split; [exact X|exact (from_step _ _ _ _ _ _ _ Hz E4 Y)]. }
      assert (HB' : forall n v, nth_error f n = Some v -> exists v', from z s4 p n v').
      { intros n v X. destruct (HB n v X) as [v' Y]. exists v'. exact (from_step _ _ _ _ _ _ _ Hz E4 Y). }
      destruct (string_dec p (fj_path b0)) as [Eq|Nq].
      2:{ exists f. rewrite D. split; [rewrite f_step_other by exact Nq; exact Hf|]. assert (N : j <> i). { intros ->. unfold job_at in Hb, Hb0. congruence. }
          exists b. split; [unfold job_at; rewrite (HO i); [exact Hb|congruence]|]. auto. }
      assert (NC : creates (fj_c b0) y = false).
      { destruct (creates (fj_c b0) y) eqn:X; [|reflexivity]. exfalso. destruct (Nat.eq_dec j i) as [->|N].
        - unfold job_at in Hb, Hb0. rewrite Hb in Hb0. injection Hb0 as <-. destruct (creates_pc _ _ X). congruence.
        - apply Hy. exists j, b0, y. split; [reflexivity|]. split; [exact N|]. split; [exact Hb0|]. split; [congruence|exact X]. }
      exists (f_write z (fj_c b0) c' f). split; [rewrite D, Eq; unfold f_step; rewrite NC, <- Eq, Hf, set_file_same; reflexivity|].
      assert (FW : forall n v, nth_error d n = Some v -> from z s4 p (length (z (j_out (fj_c b0))) + n) v).
      { intros n v Hn. eexists j, _. split; [exact H'|]. cbn [fj_path fj_c]. split; [congruence|]. rewrite E1, nth_error_app2 by lia. rewrite <- Hn. f_equal. lia. }
      assert (FO : forall n, n < length (z (j_out (fj_c b0))) -> exists v, from z s4 p n v).
      { intros n L. destruct (nth_error (z (j_out (fj_c b0))) n) as [v|] eqn:En; [|apply nth_error_None in En; lia]. exists v. eexists j, _. split; [exact H'|].
        cbn [fj_path fj_c]. split; [congruence|]. rewrite E1, nth_error_app1 by exact L. exact En. }
      assert (QB : forall n v, nth_error (f_write z (fj_c b0) c' f) n = Some v -> exists v', from z s4 p n v').
      { intros n v. unfold f_write. rewrite Ed. destruct d as [|d0 d]; [exact (HB' n v)|]. intros Hn. rewrite nth_write in Hn by discriminate.
        destruct (Nat.ltb_spec n (length (z (j_out (fj_c b0))))) as [L1|L1]; [exact (FO n L1)|].
        destruct (n <? _); [|exact (HB' n v Hn)]. exists v. replace n with (length (z (j_out (fj_c b0))) + (n - length (z (j_out (fj_c b0))))) by lia. apply FW, Hn. }
      (* positions that the job itself has written *)
      assert (QA : forall n, n < length (z (j_out (fj_c b))) -> exists v, nth_error (f_write z (fj_c b0) c' f) n = Some v /\ from z s4 p n v).
      { intros n L. unfold f_write. rewrite Ed. destruct (HA' n L) as (v & X & Y). destruct d as [|d0 d]; [exists v; split; [exact X|exact Y]|].
        rewrite nth_write by discriminate. assert (Lf : n < length f) by (apply nth_error_Some; congruence).
        destruct (Nat.ltb_spec n (length (z (j_out (fj_c b0))))) as [L1|L1].
        - rewrite (proj2 (Nat.ltb_lt _ _) Lf). exists v. auto.
        - destruct (Nat.ltb_spec n (length (z (j_out (fj_c b0))) + length (d0 :: d))) as [L2|L2]; [|exists v; auto].
          destruct (nth_error (d0 :: d) (n - length (z (j_out (fj_c b0))))) as [w|] eqn:En; [|apply nth_error_None in En; lia].
          exists w. split; [reflexivity|]. replace n with (length (z (j_out (fj_c b0))) + (n - length (z (j_out (fj_c b0))))) by lia. apply FW, En. }
      destruct (Nat.eq_dec j i) as [->|N].
      * unfold job_at in Hb, Hb0. rewrite Hb in Hb0. injection Hb0 as <-. eexists. split; [exact H'|]. cbn [fj_path fj_c]. split; [congruence|].
        split; [intros X; exact (NP (HP X))|]. split; [|exact QB].
        intros n L. destruct (Nat.lt_ge_cases n (length (z (j_out (fj_c b))))) as [L1|L1]; [exact (QA n L1)|].
        rewrite E1, app_length in L. unfold f_write. rewrite Ed. destruct d as [|d0 d]; [cbn in L; lia|]. rewrite nth_write by discriminate.
        rewrite (proj2 (Nat.ltb_ge _ _) L1), (proj2 (Nat.ltb_lt _ _) L).
        destruct (nth_error (d0 :: d) (n - length (z (j_out (fj_c b))))) as [w|] eqn:En; [|apply nth_error_None in En; lia].
        exists w. split; [reflexivity|]. replace n with (length (z (j_out (fj_c b))) + (n - length (z (j_out (fj_c b))))) by lia. apply FW, En.
      * exists b. split; [unfold job_at; rewrite (HO i); [exact Hb|congruence]|]. auto.
Qed.
