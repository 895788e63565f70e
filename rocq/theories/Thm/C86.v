(** C86: a backup to a file, what was in the file before, and jobs that share a path. *)
From Coq Require Import Strings.String Strings.Ascii Strings.Byte.
From Verif.Lib Require Import Prelude ListAux Bytes.
From Verif.Model Require Import Element Elements Segment List Msgp Codec Keys Storage Backup Job FileDest.
From Verif.Spec Require Import RankSpec QuerySpec HistorySpec AnswerSpec CodecSpec StorageSpec BackupSpec JobSpec FileDestSpec.
From Verif.Proof Require Import BackupP JobP FileDestP FileDestP2.
From Verif.Thm Require Import Sample SampleStore C46 C60.
Open Scope nat_scope.

(** A file that no job creates stays as it is, also when jobs to it fail to open it. *)
Theorem C86_kept : forall z k s p, adds z -> fgoes z (fun s x => forall i a y, x = F_job i y -> job_at s i a -> fj_path a = p -> creates (fj_c a) y = false) (fstart k) s ->
  f_disk s p = k p.
Proof. exact c86_kept. Qed.
Print Assumptions C86_kept.

(** From the moment a job has created its file, and as long as no other job creates it or writes
    to it, the file is what the compressor gave for the bytes of this job: nothing is left of what
    was there. *)
Theorem C86_alone : forall z k s1 i a x s2 s3, adds z -> fgoes z any_step (fstart k) s1 -> job_at s1 i a -> creates (fj_c a) x = true ->
  ffire z s1 (F_job i x) = Some s2 -> fgoes z (fun s y => ~ touches (fj_path a) i s y) s2 s3 ->
  exists a', job_at s3 i a' /\ fj_path a' = fj_path a /\ f_disk s3 (fj_path a) = Some (z (j_out (fj_c a'))).
Proof. exact c86_alone. Qed.
Print Assumptions C86_alone.

(** Restoring it brings back the lists as they were read, or reports an error after a first part
    of them; and if the job is Done, not Cancelled and the disk did not fail, it brings back
    exactly Success. *)
Theorem C86_restore : forall z unz k s1 i a x s2 s3 fr, adds z -> gives_back z unz -> (forall n, given_ok (fr n)) -> fgoes z sound_step (fstart k) s1 -> job_at s1 i a ->
  creates (fj_c a) x = true -> ffire z s1 (F_job i x) = Some s2 -> fgoes z (fun s y => sound_step s y /\ ~ touches (fj_path a) i s y) s2 s3 ->
  exists a', job_at s3 i a' /\ fj_path a' = fj_path a /\
    (file_restores unz fr (f_disk s3 (fj_path a)) (as_read (fj_tr a')) (read_ids (fj_tr a')) \/
     file_stops unz fr (f_disk s3 (fj_path a)) (as_read (fj_tr a')) (read_ids (fj_tr a'))) /\
    (over (fj_c a') -> t_cancelled (j_st (fj_c a')) = false -> opened (fj_c a') -> j_bad (fj_c a') = false ->
     file_restores unz fr (f_disk s3 (fj_path a)) (as_read (fj_tr a')) (t_success (j_st (fj_c a')))).
Proof. exact c86_restore. Qed.
Print Assumptions C86_restore.

(** However many jobs share a path: after one of them has created the file, each byte of the file
    is a zero or the byte that one of these jobs has for this position. *)
Theorem C86_bytes : forall z k s1 i a x s2 s3 f n b, adds z -> fgoes z any_step (fstart k) s1 -> job_at s1 i a -> creates (fj_c a) x = true ->
  ffire z s1 (F_job i x) = Some s2 -> fgoes z any_step s2 s3 -> f_disk s3 (fj_path a) = Some f -> nth_error f n = Some b ->
  b = Byte.x00 \/ exists j a', job_at s3 j a' /\ fj_path a' = fj_path a /\ nth_error (z (j_out (fj_c a'))) n = Some b.
Proof. exact c86_bytes. Qed.
Print Assumptions C86_bytes.

(** Jobs that share a path and write the same stream [S] do not harm each other, if the one that
    created the file last gets to the end. *)
Theorem C86_same : forall z k s1 i a x s2 s3 a' S, adds z -> fgoes z any_step (fstart k) s1 -> job_at s1 i a -> creates (fj_c a) x = true ->
  ffire z s1 (F_job i x) = Some s2 -> fgoes z (fun s y => ~ reopens (fj_path a) i s y) s2 s3 ->
  (forall j b, job_at s3 j b -> fj_path b = fj_path a -> exists r, S = z (j_out (fj_c b)) ++ r) ->
  job_at s3 i a' -> z (j_out (fj_c a')) = S -> f_disk s3 (fj_path a) = Some S.
Proof. exact c86_same. Qed.
Print Assumptions C86_same.

(** ** Runs *)
(** a compressor that fits: each byte with a mark before it *)
Definition z1 (a : wire) : wire := flat_map (fun b => [Byte.x28; b]) a.
Fixpoint unz1 (b : wire) : wire := match b with Byte.x28 :: x :: r => x :: unz1 r | _ => [] end.
Example z1_adds : adds z1.
Proof.
  split; [reflexivity|]. split; [|intros [|x a]; [reflexivity|discriminate]]. intros a b. exists (z1 b). unfold z1. apply flat_map_app.
Qed.
Example z1_back : gives_back z1 unz1.
Proof. intros a. induction a as [|x a IH]; [reflexivity|]. cbn. unfold z1 in IH. rewrite IH. reflexivity. Qed.
Example z1_zero : no_zero unz1.
Proof. intros b. reflexivity. Qed.

Definition pth : string := "/backup/all.bin".
Definition j0 (x : jchoice) : fchoice := F_job 0 x.
Definition j1 (x : jchoice) : fchoice := F_job 1 x.
Definition k0 : disk := fun p => if String.eqb p pth then Some [Byte.x28; Byte.xff] else None.
Definition rest : list jchoice := [g; g; g; g; g; J_flow 100; g; g; g; J_flow 1000; g; g].
Definition sees (s : fcfg) :=
  (map (fun a => let t := j_st (fj_c a) in (t_done t, t_errs t, t_success t, t_cancelled t, j_bad (fj_c a))) (f_jobs s),
   let r := restore_file unz1 fr0 "" "" false (fun _ => None) (f_disk s pth) in (fst r, map (show (snd r)) ids0)).
(** a job replaces what was there *)
Example C86_run : option_map sees (fplay z1 (fstart k0) (F_new pth ids0 src0 :: map j0 (g :: rest))) =
  Some ([(true, [], ["players"; "teams"], false, false)], (JDone 2 0, [pl; te]))%string.
Proof. vm_compute. reflexivity. Qed.
(** a job that cannot create the file leaves it *)
Example C86_denied : option_map (fun s => (sees s, f_disk s pth)) (fplay z1 (fstart k0) [F_new pth ids0 src0; j0 (J_go false 0); j0 g]) =
  Some (([(true, ["saver"], [], false, false)], (JErr, [None; None])), Some [Byte.x28; Byte.xff])%string.
Proof. vm_compute. reflexivity. Qed.
(** there is no file, and it cannot be created *)
Example C86_missing : option_map (fun s => (sees s, f_disk s pth)) (fplay z1 (fstart (fun _ => None)) [F_new pth ids0 src0; j0 (J_go false 0); j0 (J_flow 5); j0 g]) =
  Some (([(true, ["saver"], [], false, false)], (JErr, [None; None])), None)%string.
Proof. vm_compute. reflexivity. Qed.
(** the disk is full in the middle *)
Example C86_full : option_map sees (fplay z1 (fstart k0) (F_new pth ids0 src0 :: map j0 [g; g; g; g; g; g; J_flow 300; J_break; J_go false 0; g; J_go false 0; g; g])) =
  Some ([(true, ["finalizing"; "teams"], ["players"], false, true)], (JErr, [pl; None]))%string.
Proof. vm_compute. reflexivity. Qed.
(** two jobs of the same lists at once *)
Example C86_two : option_map sees (fplay z1 (fstart k0) (F_new pth ids0 src0 :: F_new pth ids0 src0 :: map j0 [g; g; g; g; g; J_flow 100] ++ map j1 [g; g; g; g; g; J_flow 70] ++
    map j0 [g; g; g; g; J_flow 1000; g; g] ++ map j1 [g; g; g; g; J_flow 1000; g; g])) =
  Some ([(true, [], ["players"; "teams"], false, false); (true, [], ["players"; "teams"], false, false)], (JDone 2 0, [pl; te]))%string.
Proof. vm_compute. reflexivity. Qed.
(** two jobs of different lists at once: of one of them nothing is left, though its status is as good as the other's *)
Example C86_other : option_map sees (fplay z1 (fstart k0) (F_new pth ["players"]%string src0 :: F_new pth ["teams"]%string src0 :: map j0 [g; g; g; g; g; J_flow 1000] ++ map j1 [g; g; g; g; g; J_flow 1000] ++
    map j0 [g; J_flow 10; g; g] ++ map j1 [g; J_flow 10; g; g])) =
  Some ([(true, [], ["players"], false, false); (true, [], ["teams"], false, false)], (JDone 1 0, [None; te]))%string.
Proof. vm_compute. reflexivity. Qed.

(** C86_alone and C86_restore in the run above, over a file that was there *)
Definition mine (x : fchoice) : Prop := exists y, x = F_job 0 y /\ sound_lists y.
Lemma mine_ok p l : Forall mine l -> Forall (fun x => forall s, sound_step s x /\ ~ touches p 0 s x) l.
Proof. apply Forall_impl. intros x (y & -> & H) s. split; [exact H|apply own_untouched]. Qed.
Ltac sm := repeat (apply Forall_cons || apply Forall_nil); first [intros ?; exact Logic.I | intros ?; split; [repeat constructor; cbn; intuition discriminate|exact src0_sound] | eexists; split; [reflexivity|exact Logic.I] | idtac].
Example C86_run_holds : forall z unz, adds z -> gives_back z unz -> exists s a, fplay z (fstart k0) (F_new pth ids0 src0 :: map j0 (g :: rest)) = Some s /\ job_at s 0 a /\
  f_disk s pth = Some (z (j_out (fj_c a))) /\ file_restores unz fr0 (f_disk s pth) (as_read (fj_tr a)) ids0.
Proof.
  intros z unz Hz Hu.
  assert (R : option_map (fun s => (fun l => map (fun a => let t := j_st (fj_c a) in (t_done t, t_errs t, t_success t, t_cancelled t, j_bad (fj_c a))) l) (f_jobs s))
    (fplay (fun b => b) (fstart k0) (F_new pth ids0 src0 :: map j0 (g :: rest))) = Some [(true, [], ids0, false, false)]) by (vm_compute; reflexivity).
  destruct (indep_see (fun l => map (fun a => let t := j_st (fj_c a) in (t_done t, t_errs t, t_success t, t_cancelled t, j_bad (fj_c a))) l) z k0 k0 _ _ R) as (s & Es & Ej).
  change (F_new pth ids0 src0 :: map j0 (g :: rest)) with ([F_new pth ids0 src0] ++ [j0 g] ++ map j0 rest) in Es.
  destruct (fplay_app _ _ _ _ _ Es) as (s1 & E1 & E2). destruct (fplay_app _ _ _ _ _ E2) as (s2 & E3 & E4).
  cbn [fplay] in E3. destruct (ffire z s1 (j0 g)) as [s2'|] eqn:E5; [|discriminate]. injection E3 as <-.
  pose proof E1 as E1'. cbn [fplay ffire fstart f_jobs f_disk app] in E1. injection E1 as <-.
  assert (G1 : fgoes z sound_step (fstart k0) (mkF [mkFJ pth ids0 src0 [] (jstart src0)] k0)) by (eapply fplay_goes; [|exact E1']; sm).
  assert (G3 : fgoes z (fun s y => sound_step s y /\ ~ touches pth 0 s y) s2' s) by (eapply fplay_goes; [|exact E4]; apply mine_ok; unfold rest; cbn [map]; sm).
  destruct (C86_restore z unz k0 _ 0 (mkFJ pth ids0 src0 [] (jstart src0)) g s2' s fr0 Hz Hu fr0_ok G1 eq_refl eq_refl E5 G3) as (a & Ha & _ & _ & B).
  destruct (C86_alone z k0 _ 0 (mkFJ pth ids0 src0 [] (jstart src0)) g s2' s Hz (fgoes_mono _ _ any_step _ _ (fun _ _ _ => Logic.I) G1) eq_refl eq_refl E5 (fgoes_mono _ _ _ _ _ (fun _ _ X => proj2 X) G3))
    as (a' & Ha' & _ & D).
  unfold job_at in Ha, Ha'. rewrite Ha in Ha'. injection Ha' as <-. destruct (f_jobs s) as [|q l] eqn:El; [discriminate|]. cbn in Ha. injection Ha as ->. cbn [map] in Ej. injection Ej as X1 X2 X3 X4 X5 X6.
  exists s, a. split; [exact Es|]. split; [unfold job_at; rewrite El; reflexivity|]. split; [exact D|]. rewrite <- X3. apply B; auto. unfold opened. rewrite X2. intros [].
Qed.

(** ** What a backup to a file does not give *)

(** A complete backup in a file is gone when the next job to this path begins: if that job is
    then cancelled, restoring the file brings back nothing. *)
Theorem C86_lost_refuted : forall z unz, adds z -> gives_back z unz -> exists k s1 s2 p m ids fr, ids <> [] /\ (forall n, given_ok (fr n)) /\ fgoes z sound_step (fstart k) s1 /\
  (forall i a, job_at s1 i a -> over (fj_c a)) /\ file_restores unz fr (f_disk s1 p) m ids /\
  fgoes z sound_step s1 s2 /\ (forall i a, job_at s2 i a -> over (fj_c a) /\ t_errs (j_st (fj_c a)) = [] /\ j_bad (fj_c a) = false) /\ forall fr', file_useless unz fr' (f_disk s2 p).
Proof.
  intros z unz Hz Hu. destruct (C86_run_holds z unz Hz Hu) as (s1 & a & E1 & Ha & _ & HR).
  set (l1 := F_new pth ids0 src0 :: map j0 (g :: rest)) in *. set (l2 := [j1 J_cancel; j1 g; j1 g; j1 g] : list fchoice).
  assert (R : option_map (fun s => map (fun a => let t := j_st (fj_c a) in (t_done t, t_errs t, j_bad (fj_c a))) (f_jobs s))
    (fplay (fun b => b) (fstart k0) (l1 ++ ([F_new pth ids0 src0] ++ [j1 g]) ++ l2)) = Some [(true, [], false); (true, [], false)]) by (vm_compute; reflexivity).
  destruct (indep_see (fun l => map (fun a => let t := j_st (fj_c a) in (t_done t, t_errs t, j_bad (fj_c a))) l) z k0 k0 _ _ R) as (s2 & Es & Ej).
  destruct (fplay_app _ _ _ _ _ Es) as (s1' & E1' & E2). rewrite E1 in E1'. injection E1' as <-.
  destruct (fplay_app _ _ _ _ _ E2) as (s3 & E3 & E4). destruct (fplay_app _ _ _ _ _ E3) as (s4 & E5 & E6).
  cbn [fplay] in E6. destruct (ffire z s4 (j1 g)) as [s3'|] eqn:E7; [|discriminate]. injection E6 as <-.
  assert (G1 : fgoes z sound_step (fstart k0) s1) by (eapply fplay_goes; [|exact E1]; unfold l1, rest; cbn [map]; sm).
  assert (G2 : fgoes z sound_step s1 s4) by (eapply fplay_goes; [|exact E5]; sm).
  assert (G4 : fgoes z sound_step s3' s2) by (eapply fplay_goes; [|exact E4]; unfold l2; sm).
  assert (L1 : option_map (fun s => map (fun a => (t_done (j_st (fj_c a)))) (f_jobs s)) (fplay (fun b => b) (fstart k0) l1) = Some [true]) by (vm_compute; reflexivity).
  destruct (indep_see (fun l => map (fun a => t_done (j_st (fj_c a))) l) z k0 k0 _ _ L1) as (s1' & E8 & Ej1). rewrite E1 in E8. injection E8 as <-.
  destruct (f_jobs s1) as [|q [|]] eqn:El; try discriminate Ej1. pose proof E5 as E5'. cbn [fplay ffire app] in E5. injection E5 as <-. rewrite El in *.
  exists k0, s1, s2, pth, (as_read (fj_tr a)), ids0, fr0. split; [discriminate|]. split; [exact fr0_ok|]. split; [exact G1|]. split.
  { intros [|i] b X; unfold job_at in X; rewrite El in X; [|destruct i; discriminate X]. cbn in X. injection X as <-. cbn [map] in Ej1. injection Ej1 as Y. exact Y. }
  split; [exact HR|]. split.
  { eapply fgoes_trans; [exact G2|]. eapply fgoes_trans; [econstructor; [constructor| |exact E7]; exact Logic.I|exact G4]. }
  split.
  { intros i b X. assert (Y : In (t_done (j_st (fj_c b)), t_errs (j_st (fj_c b)), j_bad (fj_c b)) [(true, [], false); (true, [], false)]).
    { rewrite <- Ej. apply (in_map (fun a => (t_done (j_st (fj_c a)), t_errs (j_st (fj_c a)), j_bad (fj_c a)))). exact (nth_error_In _ _ X). }
    destruct Y as [Y|[Y|[]]]; injection Y as Y1 Y2 Y3; (split; [unfold over; congruence|]; split; congruence). }
  intros fr'.
  assert (G34 : fgoes z (fun s y => ~ touches pth 1 s y) s3' s2).
  { eapply fplay_goes; [|exact E4]. unfold l2. repeat (apply Forall_cons || apply Forall_nil); intros ?; apply own_untouched. }
  destruct (C86_alone z k0 _ 1 (mkFJ pth ids0 src0 [] (jstart src0)) g s3' s2 Hz
    (fgoes_mono _ _ any_step _ _ (fun _ _ _ => Logic.I) (fgoes_trans _ _ _ _ _ G1 G2)) eq_refl eq_refl E7 G34) as (b & Hb & _ & D).
  cbn [fj_path] in D. rewrite D.
  assert (RO : option_map (fun s => map (fun a => j_out (fj_c a)) (skipn 1 (f_jobs s))) (fplay (fun b => b) (fstart k0) (l1 ++ ([F_new pth ids0 src0] ++ [j1 g]) ++ l2)) = Some [[]])
    by (vm_compute; reflexivity).
  destruct (indep_see (fun l => map (fun a => j_out (fj_c a)) (skipn 1 l)) z k0 k0 _ _ RO) as (s2' & Es' & Ej'). rewrite Es in Es'. injection Es' as <-.
  unfold job_at in Hb. destruct (f_jobs s2) as [|b0 [|b1 [|]]]; [discriminate Hb|discriminate Hb| |discriminate Ej']. cbn in Hb. injection Hb as ->. cbn [skipn map] in Ej'. injection Ej' as ->.
  destruct Hz as (Z0 & Z1). rewrite Z0. exact (empty_useless z unz fr' (conj Z0 Z1) Hu).
Qed.
Print Assumptions C86_lost_refuted.

(** A job that is Done, has no errors, is not Cancelled and has every list in Success, on a disk
    that never failed: restoring its file may bring back nothing, because another job to the same
    path began in between, and was cancelled. *)
Theorem C86_done_refuted : forall z unz, adds z -> gives_back z unz -> no_zero unz -> exists k s i a, fgoes z sound_step (fstart k) s /\ job_at s i a /\
  over (fj_c a) /\ t_errs (j_st (fj_c a)) = [] /\ t_cancelled (j_st (fj_c a)) = false /\ t_success (j_st (fj_c a)) = fj_ids a /\ fj_ids a <> [] /\
  (forall j b, job_at s j b -> j_bad (fj_c b) = false) /\ forall fr, file_useless unz fr (f_disk s (fj_path a)).
Proof.
  intros z unz Hz Hu Hn.
  set (la := F_new pth ids0 src0 :: F_new pth ids0 src0 :: map j0 [g; g; g; g; g; J_flow 100] : list fchoice).
  set (lb := [j1 J_cancel; j1 g; j1 g; j1 g] : list fchoice). set (lc := map j0 [g; g; g; g; J_flow 1000; g; g] : list fchoice).
  set (v := fun a : fjob => let t := j_st (fj_c a) in (fj_path a, fj_ids a, t_done t, t_errs t, t_success t, t_cancelled t, j_bad (fj_c a))).
  assert (R : option_map (fun s => map v (f_jobs s)) (fplay (fun b => b) (fstart k0) (la ++ ([j1 g] ++ lb) ++ lc)) =
    Some [(pth, ids0, true, [], ids0, false, false); (pth, ids0, true, [], [], true, false)]) by (vm_compute; reflexivity).
  destruct (indep_see (map v) z k0 k0 _ _ R) as (s & Es & Ej).
  destruct (fplay_app _ _ _ _ _ Es) as (s1 & E1 & E2). destruct (fplay_app _ _ _ _ _ E2) as (s3 & E3 & E4). destruct (fplay_app _ _ _ _ _ E3) as (s2 & E5 & E6).
  cbn [fplay] in E5. destruct (ffire z s1 (j1 g)) as [s2'|] eqn:E7; [|discriminate]. injection E5 as <-.
  assert (G1 : fgoes z sound_step (fstart k0) s1) by (eapply fplay_goes; [|exact E1]; unfold la; cbn [map]; sm).
  assert (G2 : fgoes z sound_step s2' s3) by (eapply fplay_goes; [|exact E6]; unfold lb; sm).
  assert (G3 : fgoes z sound_step s3 s) by (eapply fplay_goes; [|exact E4]; unfold lc; cbn [map]; sm).
  (* the second job creates the file and writes nothing *)
  set (w := fun a : fjob => (fj_path a, j_pc (fj_c a), length (j_out (fj_c a)))).
  assert (R1 : option_map (fun s => map w (f_jobs s)) (fplay (fun b => b) (fstart k0) la) = Some [(pth, JFind "teams" [], 100); (pth, JSave, 0)]) by (vm_compute; reflexivity).
  destruct (indep_see (map w) z k0 k0 _ _ R1) as (s1' & E1' & Ew1). rewrite E1 in E1'. injection E1' as <-.
  assert (R3 : option_map (fun s => map w (f_jobs s)) (fplay (fun b => b) (fstart k0) (la ++ ([j1 g] ++ lb))) = Some [(pth, JFind "teams" [], 100); (pth, JOver, 0)]) by (vm_compute; reflexivity).
  destruct (indep_see (map w) z k0 k0 _ _ R3) as (s3' & E3' & Ew3). destruct (fplay_app _ _ _ _ _ E3') as (s1' & E1' & E3''). rewrite E1 in E1'. injection E1' as <-.
  rewrite E3 in E3''. injection E3'' as <-.
  destruct (f_jobs s1) as [|a0 [|a1 [|]]] eqn:El1; try discriminate Ew1. cbn [map] in Ew1. unfold w in Ew1. injection Ew1 as P0 Q0 O0 P1 Q1 O1.
  destruct (f_jobs s3) as [|b0 [|b1 [|]]] eqn:El3; try discriminate Ew3. cbn [map] in Ew3. unfold w in Ew3. injection Ew3 as P2 Q2 O2 P3 Q3 O3.
  assert (G23 : fgoes z (fun s y => ~ touches (fj_path a1) 1 s y) s2' s3).
  { eapply fplay_goes; [|exact E6]. unfold lb. repeat (apply Forall_cons || apply Forall_nil); intros ?; apply own_untouched. }
  assert (Ha1 : job_at s1 1 a1) by (unfold job_at; rewrite El1; reflexivity).
  assert (C1 : creates (fj_c a1) g = true) by (unfold creates; rewrite Q1; reflexivity).
  destruct (C86_alone z k0 s1 1 a1 g s2' s3 Hz (fgoes_mono _ _ any_step _ _ (fun _ _ _ => Logic.I) G1) Ha1 C1 E7 G23) as (b & Hb & _ & D).
  unfold job_at in Hb. rewrite El3 in Hb. cbn in Hb. injection Hb as <-. destruct (j_out (fj_c b1)) eqn:Eo; [|discriminate O3]. rewrite P1 in D.
  assert (Z0 : z [] = []) by exact (proj1 Hz). rewrite Z0 in D.
  (* the first job goes on where it was *)
  assert (Hb0 : job_at s3 0 b0) by (unfold job_at; rewrite El3; reflexivity).
  destruct (hole_stays z lc 0 b0 s3 s [] Hz) as (f & Hf & Hh).
  { unfold lc. cbn [map]. repeat (apply Forall_cons || apply Forall_nil); eexists; reflexivity. }
  { exact Hb0. } { rewrite Q2. discriminate. } { destruct (j_out (fj_c b0)); [discriminate O2|discriminate]. } { rewrite P2. exact D. } { exact Logic.I. } { exact E4. }
  destruct (f_jobs s) as [|a [|a' [|]]] eqn:El; try discriminate Ej. cbn [map] in Ej. unfold v in Ej. injection Ej as X1 X2 X3 X4 X5 X6 X7 Y1 Y2 Y3 Y4 Y5 Y6 Y7.
  exists k0, s, 0, a. split.
  { eapply fgoes_trans; [exact G1|]. eapply fgoes_trans; [econstructor; [constructor| |exact E7]; exact Logic.I|]. eapply fgoes_trans; [exact G2|exact G3]. }
  split; [unfold job_at; rewrite El; reflexivity|]. split; [exact X3|]. split; [exact X4|]. split; [exact X6|]. split; [congruence|]. split; [rewrite X2; discriminate|]. split.
  - intros [|[|j]] q X; unfold job_at in X; rewrite El in X; [| |destruct j; discriminate X]; cbn in X; injection X as <-; assumption.
  - intros fr. rewrite X1, <- P2, Hf. exact (holed_useless z unz fr f Hz Hu Hn Hh).
Qed.
Print Assumptions C86_done_refuted.
