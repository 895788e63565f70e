From Coq Require Import Strings.String Strings.Ascii Strings.Byte.
From Verif.Lib Require Import Prelude ListAux Bytes.
From Verif.Model Require Import Element Elements Segment List Msgp Codec Keys Storage Backup Job Ship FileDest.
From Verif.Spec Require Import RankSpec QuerySpec HistorySpec AnswerSpec CodecSpec StorageSpec BackupSpec JobSpec ShipSpec FileDestSpec.
From Verif.Proof Require Import BackupP JobP ShipP FileDestP.
Open Scope nat_scope.

(** the jobs run the same whatever the files are *)
Lemma jobs_indep z z2 l : forall s k s', fplay z s l = Some s' -> exists s2, fplay z2 (mkF (f_jobs s) k) l = Some s2 /\ f_jobs s2 = f_jobs s'.
Proof.
  induction l as [|x l IH]; intros s k s' E; cbn [fplay] in *.
  - injection E as <-. eexists. split; [reflexivity|reflexivity].
  - destruct (ffire z s x) as [s1|] eqn:E1; [|discriminate]. destruct x as [p ids m|i y]; cbn [ffire f_jobs f_disk] in *.
    + injection E1 as <-. exact (IH _ _ _ E).
    + destruct (nth_error (f_jobs s) i) as [a|]; [|discriminate]. destruct (jfire _ _ _ _) as [[e c']|]; [|discriminate]. injection E1 as <-. exact (IH _ _ _ E).
Qed.
Lemma indep_see {A} (f : list fjob -> A) z k0 k l v : option_map (fun s => f (f_jobs s)) (fplay (fun b => b) (fstart k0) l) = Some v ->
  exists s, fplay z (fstart k) l = Some s /\ f (f_jobs s) = v.
Proof.
  destruct (fplay _ _ l) as [s'|] eqn:E; [|discriminate]. intros X. injection X as <-. destruct (jobs_indep _ z _ _ k _ E) as (s & Es & Ej).
  exists s. split; [exact Es|]. rewrite Ej. reflexivity.
Qed.
Lemma fplay_app z l1 l2 s s' : fplay z s (l1 ++ l2) = Some s' -> exists s1, fplay z s l1 = Some s1 /\ fplay z s1 l2 = Some s'.
Proof.
  revert s. induction l1 as [|x l1 IH]; intros s E; cbn [app fplay] in *; [exists s; auto|]. destruct (ffire z s x) as [s1|]; [|discriminate]. exact (IH s1 E).
Qed.
Lemma fplay_goes z (ok : fcfg -> fchoice -> Prop) l : Forall (fun x => forall s, ok s x) l -> forall s s', fplay z s l = Some s' -> fgoes z ok s s'.
Proof.
  induction 1 as [|x l Hx HL IH]; intros s s' E; cbn [fplay] in E; [injection E as <-; constructor|].
  destruct (ffire z s x) as [s1|] eqn:E1; [|discriminate]. eapply fgoes_trans; [econstructor; [constructor|exact (Hx s)|exact E1]|exact (IH s1 s' E)].
Qed.
Lemma own_untouched p i y s : ~ touches p i s (F_job i y).
Proof. intros (j & a & y' & E & N & _). injection E as -> _. congruence. Qed.

(** a file that is empty or begins with a hole *)
Definition holed (f : wire) : Prop := match f with [] => True | b :: _ => b = Byte.x00 end.
Lemma holed_write o d f : 0 < o -> holed f -> holed (write_at o d f).
Proof.
  intros Ho Hf. destruct d as [|d0 d]; [exact Hf|]. cbn [write_at]. destruct o as [|o]; [lia|].
  destruct f as [|b f]; cbn [app length Nat.sub repeat firstn]; [reflexivity|]. exact Hf.
Qed.
Lemma hole_stays z l j a s s' f : adds z -> Forall (fun x => exists y, x = F_job j y) l -> job_at s j a -> j_pc (fj_c a) <> JSave -> j_out (fj_c a) <> [] ->
  f_disk s (fj_path a) = Some f -> holed f -> fplay z s l = Some s' -> exists f', f_disk s' (fj_path a) = Some f' /\ holed f'.
Proof.
  intros Hz HL. revert a s f. induction HL as [|x l [y ->] HL IH]; intros a s f Ha NP NO Hf Hh E; cbn [fplay] in E; [injection E as <-; exists f; auto|].
  destruct (ffire z s (F_job j y)) as [s1|] eqn:E1; [|discriminate].
  destruct (ffire_job _ _ _ _ _ E1) as (b & e & c' & Hb & Ef & H' & HO & D). unfold job_at in Ha, Hb. rewrite Ha in Hb. injection Hb as <-.
  destruct (jfire_out _ _ _ _ _ _ Ef) as (bs & EO & _ & _ & _ & _ & HP).
  assert (NC : creates (fj_c a) y = false). { destruct (creates (fj_c a) y) eqn:X; [|reflexivity]. destruct (creates_pc _ _ X). congruence. }
  apply (IH (mkFJ (fj_path a) (fj_ids a) (fj_m a) (fj_tr a ++ jev e) c') s1 (f_write z (fj_c a) c' f)); [exact H'|cbn [fj_c fj_path]..|exact E].
  - intros X. exact (NP (HP X)).
  - rewrite EO. destruct (j_out (fj_c a)); [congruence|discriminate].
  - rewrite D. unfold f_step. rewrite NC, Hf, set_file_same. reflexivity.
  - unfold f_write. apply holed_write; [|exact Hh]. destruct (z (j_out (fj_c a))) eqn:X; [|cbn; lia]. destruct Hz as (_ & _ & Z). apply Z in X. congruence.
Qed.
Lemma empty_useless z unz fr : adds z -> gives_back z unz -> file_useless unz fr (Some []).
Proof. intros (Z & _) G pre suf rep m0. unfold restore_file. rewrite <- Z, G. reflexivity. Qed.
Lemma holed_useless z unz fr f : adds z -> gives_back z unz -> no_zero unz -> holed f -> file_useless unz fr (Some f).
Proof.
  intros Hz G N H. destruct f as [|b f]; [exact (empty_useless z unz fr Hz G)|]. cbn in H. subst b. intros pre suf rep m0. unfold restore_file. rewrite N. reflexivity.
Qed.
