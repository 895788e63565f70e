(** Backup jobs: the stream, the status, progress. *)
From Coq Require Import Strings.Byte Strings.String.
From Verif.Lib Require Import Prelude ListAux.
From Verif.Model Require Import Element Elements Segment List Msgp Codec Storage Backup Job.
From Verif.Spec Require Import BackupSpec JobSpec.
From Verif.Proof Require Import BackupP.
Open Scope nat_scope.

Definition recs (tr : list jevent) : wire := flat_map (fun e => match e with JRead _ d l => record_bytes d l end) tr.
Lemma recs_app a b : recs (a ++ b) = recs a ++ recs b.
Proof. apply flat_map_app. Qed.
Lemma read_ids_app a b : read_ids (a ++ b) = read_ids a ++ read_ids b.
Proof. apply map_app. Qed.

(** the lists still to be looked at *)
Definition todo (ids : list string) (pc : jpc) : list string :=
  match pc with JSave => ids | JTop r => r | JFind id r | JWrote id r => id :: r | _ => [] end.
Definition early (pc : jpc) : bool := match pc with JSave | JTop _ | JFind _ _ | JWrote _ _ => true | _ => false end.
Definition late (pc : jpc) : bool := match pc with JWait | JOver => true | _ => false end.
Definition settled (t : status) (id : string) : Prop := In id (t_success t) \/ In id (t_errs t).

Inductive sub {A} : list A -> list A -> Prop :=
| sub_nil : sub [] []
| sub_take x a b : sub a b -> sub (x :: a) (x :: b)
| sub_skip x a b : sub a b -> sub a (x :: b).
Lemma sub_nil_l {A} (b : list A) : sub [] b.
Proof. induction b; constructor; assumption. Qed.
Lemma sub_app_take {A} (a b : list A) x : sub a b -> sub (a ++ [x]) (b ++ [x]).
Proof. induction 1; cbn; constructor; try assumption. constructor. Qed.
Lemma sub_app_skip {A} (a b : list A) x : sub a b -> sub a (b ++ [x]).
Proof. induction 1; cbn; constructor; try assumption. constructor. Qed.
Lemma sub_in {A} (a b : list A) : sub a b -> forall x, In x a -> In x b.
Proof. induction 1; cbn; intros y Hy; [assumption|destruct Hy; auto|auto]. Qed.
Lemma sub_nodup {A} (a b : list A) : sub a b -> NoDup b -> NoDup a.
Proof.
  induction 1 as [|x a b S IH|x a b S IH]; intros ND; [constructor| |]; inversion ND as [|? ? P Q]; subst; [|auto].
  constructor; [|auto]. intros H. apply P. eapply sub_in; eassumption.
Qed.
Lemma sub_len {A} (a b : list A) : sub a b -> length a <= length b.
Proof. induction 1; cbn; lia. Qed.
Lemma sub_full {A} (a b : list A) : sub a b -> length a = length b -> a = b.
Proof. induction 1 as [|x a b S IH|x a b S IH]; cbn; intros E; [reflexivity|f_equal; apply IH; lia|]. apply sub_len in S. lia. Qed.
Lemma sub_trans_app {A} (a b c : list A) : sub a b -> sub a (b ++ c).
Proof. induction 1; cbn; try constructor; try assumption. apply sub_nil_l. Qed.

(** the stream *)
Record JS (tr : list jevent) (c : jcfg) : Prop := mkJS {
  js_save : j_pc c = JSave -> j_pend c = [];
  js_pre : exists b, recs tr ++ (if early (j_pc c) then [] else w_bool false) = j_out c ++ j_pend c ++ b;
  js_bad : j_bad c = true -> j_pend c = [];
  js_eq : j_bad c = false -> early (j_pc c) = true -> recs tr = j_out c ++ j_pend c;
  js_all : j_bad c = false -> early (j_pc c) = false -> t_cancelled (j_st c) = false -> opened c -> recs tr ++ w_bool false = j_out c ++ j_pend c;
  js_late : late (j_pc c) = true -> j_pend c = [] }.
(** the status *)
Record JT (ids : list string) (tr : list jevent) (c : jcfg) : Prop := mkJT {
  jt_n : t_ndone (j_st c) = length (t_success (j_st c));
  jt_done : t_done (j_st c) = match j_pc c with JOver => true | _ => false end;
  jt_can : early (j_pc c) = true \/ j_pc c = JLast -> t_cancelled (j_st c) = false;
  jt_ids : t_cancelled (j_st c) = false -> opened c -> exists p, ids = p ++ todo ids (j_pc c) /\ (forall id, In id p -> settled (j_st c) id) /\
             (t_errs (j_st c) = [] -> t_success (j_st c) = p);
  jt_reads : exists p q, ids = p ++ q /\ sub (read_ids tr) p /\
     (early (j_pc c) = true -> q = match j_pc c with JWrote _ r => r | pc => todo ids pc end);
  jt_succ : match j_pc c with
            | JWrote id _ => exists r, read_ids tr = r ++ [id] /\ sub (t_success (j_st c)) r /\ (j_bad c = false -> t_success (j_st c) = r)
            | _ => sub (t_success (j_st c)) (read_ids tr) /\ (j_bad c = false -> t_success (j_st c) = read_ids tr)
            end }.

Lemma in_err t k : In k (t_errs (st_err t k)).
Proof. cbn. destruct (in_dec string_dec k (t_errs t)); [assumption|left; reflexivity]. Qed.
Lemma err_more t k x : In x (t_errs t) -> In x (t_errs (st_err t k)).
Proof. cbn. intros H. destruct (in_dec string_dec k (t_errs t)); [assumption|right; assumption]. Qed.
Lemma err_ne t k : t_errs (st_err t k) <> [].
Proof. intros E. pose proof (in_err t k) as H. rewrite E in H. contradiction. Qed.

Lemma opened_err t k : k <> "saver"%string -> ~ In "saver"%string (t_errs (st_err t k)) <-> ~ In "saver"%string (t_errs t).
Proof.
  intros Hk. cbn. destruct (in_dec string_dec k (t_errs t)); [tauto|]. cbn. split; intros H1 H2; apply H1; [right; assumption|].
  destruct H2 as [E|H2]; [congruence|assumption].
Qed.
Lemma opened_le t k : ~ In "saver"%string (t_errs (st_err t k)) -> ~ In "saver"%string (t_errs t).
Proof. intros H1 H2. apply H1, err_more, H2. Qed.
Lemma settled_err t k id : settled t id -> settled (st_err t k) id.
Proof. intros [H|H]; [left; exact H|right; apply err_more, H]. Qed.
Lemma settled_ok t k id : settled t id -> settled (st_ok t k) id.
Proof. intros [H|H]; [left; cbn; apply in_or_app; left; exact H|right; exact H]. Qed.

Lemma js_start m : JS [] (jstart m).
Proof. split; cbn; try tauto; try discriminate; try reflexivity. exists []. reflexivity. Qed.
Lemma jt_start ids m : JT ids [] (jstart m).
Proof.
  split; cbn; try tauto; try discriminate; try reflexivity.
  - intros _ _. exists []. cbn. repeat split; tauto.
  - exists [], ids. repeat split; constructor.
  - split; [constructor|reflexivity].
Qed.

Ltac jp c := destruct c as [pc st m out pend bad cut hook]; cbn [j_pc j_st j_db j_out j_pend j_bad j_cut j_hook] in *.
Ltac jcbn := cbn [go give j_pc j_st j_db j_out j_pend j_bad j_cut j_hook early late todo orb andb jev] in *.

Ltac fin := try discriminate; try tauto; try (intros; rewrite ?app_nil_r in *; solve [auto | congruence]).
Ltac pb b := exists b; rewrite ?app_nil_r in *; cbn [app] in *; rewrite ?app_nil_r in *; solve [assumption | congruence].
Lemma js_step ids ch tr c x e c' : JS tr c -> JT ids tr c -> jfire ids ch c x = Some (e, c') -> JS (tr ++ jev e) c'.
Proof.
  intros [H0 [b H1] H2 H3 H4 H5] [_ _ HC _ _ _]. jp c.
  destruct x as [ok n|n| |failed|m'| | |]; cbn [jfire j_pc j_st j_db j_out j_pend j_bad j_cut j_hook].
  - destruct pc as [|[|id rest]|id rest|id rest| | | |].
    + specialize (H0 eq_refl). subst pend. destruct ok; intros [= <- <-]; jcbn; rewrite app_nil_r in *.
      * split; jcbn; fin. pb b.
      * split; jcbn; fin.
        -- cbn [early app] in H1. exists (b ++ w_bool false). cbn [app]. rewrite app_assoc, <- H1, ?app_nil_r. reflexivity.
        -- intros _ _ _ HO. exfalso. apply HO. unfold opened. cbn [j_st]. apply in_err.
    + intros [= <- <-]. unfold give, go. jcbn. rewrite ?app_nil_r in *. destruct bad.
      * rewrite (H2 eq_refl) in *. split; jcbn; fin.
        exists (b ++ w_bool false). rewrite H1. cbn [app]. rewrite <- app_assoc. reflexivity.
      * pose proof (H3 eq_refl eq_refl) as E3. split; jcbn; fin.
        -- exists []. rewrite ?app_nil_r, E3, <- ?app_assoc. reflexivity.
        -- intros _ _ _ _. rewrite ?app_nil_r, E3, <- ?app_assoc. reflexivity.
    + destruct cut; intros [= <- <-]; jcbn; rewrite ?app_nil_r in *.
      * split; jcbn; fin.
        -- exists (skipn n pend ++ b ++ w_bool false). rewrite H1, <- ?app_assoc. f_equal. rewrite (app_assoc (firstn n pend)), firstn_skipn. reflexivity.
        -- intros E. rewrite (H2 E). apply firstn_nil.
      * split; jcbn; fin. pb b.
    + assert (E0 : forall st', JS tr (mkJ (JTop rest) st' m out pend bad cut hook)).
      { intros st'. split; jcbn; fin. pb b. }
      destruct (m id) as [[d l]|]; [destruct ok|]; intros [= <- <-]; unfold give, go; jcbn; rewrite ?app_nil_r; [|apply E0|apply E0].
      rewrite app_nil_r in H1.
      assert (ER : recs (tr ++ [JRead id d l]) = recs tr ++ record_bytes d l) by (rewrite recs_app; cbn; rewrite app_nil_r; reflexivity).
      destruct bad; split; jcbn; rewrite ?ER, ?app_nil_r; fin.
      * exists (b ++ record_bytes d l). rewrite H1, <- ?app_assoc. reflexivity.
      * exists []. rewrite (H3 eq_refl eq_refl), app_nil_r, <- ?app_assoc. reflexivity.
      * intros _ _. rewrite (H3 eq_refl eq_refl), <- ?app_assoc. reflexivity.
    + assert (E0 : forall st', JS tr (mkJ (JTop rest) st' m out pend bad cut hook)).
      { intros st'. split; jcbn; fin. pb b. }
      destruct ok; [|destruct bad]; intros [= <- <-]; unfold go; jcbn; rewrite ?app_nil_r; apply E0.
    + assert (E0 : forall st', t_cancelled st' = t_cancelled st -> (~ In "saver"%string (t_errs st') -> ~ In "saver"%string (t_errs st)) -> JS tr (mkJ JClose st' m out pend bad cut hook)).
      { intros st' Q1 Q2. split; jcbn; fin; try solve [pb b]; unfold opened in *; jcbn; rewrite Q1; intros; apply H4; auto. }
      destruct ok; [|destruct bad]; intros [= <- <-]; unfold go; jcbn; rewrite ?app_nil_r; apply E0; auto. apply opened_le.
    + assert (EP : pend = [] -> JS tr (mkJ JWait st m out pend bad cut hook)).
      { intros ->. split; jcbn; fin. pb b. }
      destruct pend, bad; intros [= <- <-]; unfold go; jcbn; rewrite ?app_nil_r; apply EP; auto.
    + destruct ch; intros [= <- <-]; jcbn; rewrite app_nil_r. split; jcbn; fin. pb b.
    + discriminate.
  - destruct bad; intros [= <- <-]. jcbn. rewrite app_nil_r. split; jcbn.
    + intros E. rewrite (H0 E). apply skipn_nil.
    + exists b. rewrite H1, <- ?app_assoc. f_equal. rewrite (app_assoc (firstn n pend)), firstn_skipn. reflexivity.
    + discriminate.
    + intros A B. rewrite (H3 A B), <- app_assoc, firstn_skipn. reflexivity.
    + intros A B C D. rewrite (H4 A B C D), <- app_assoc, firstn_skipn. reflexivity.
    + intros E. rewrite (H5 E). apply skipn_nil.
  - intros [= <- <-]. jcbn. rewrite app_nil_r. split; jcbn; fin. exists (pend ++ b). assumption.
  - destruct pc, ch; intros E; try discriminate. injection E as <- <-. jcbn. rewrite app_nil_r. split; jcbn; fin; [pb b|].
    intros A B C D. apply H4; auto; [destruct failed; exact C|]. unfold opened in *. destruct failed; jcbn; [|exact D]. eapply opened_le. exact D.
  - intros [= <- <-]. jcbn. rewrite app_nil_r. split; jcbn; try tauto. pb b.
  - intros [= <- <-]. jcbn. rewrite app_nil_r. split; jcbn; try tauto. pb b.
  - intros [= <- <-]. jcbn. rewrite app_nil_r. split; jcbn; try tauto. pb b.
  - intros [= <- <-]. jcbn. rewrite app_nil_r. split; jcbn; try tauto. pb b.
Qed.

Ltac jauto := auto; try discriminate; try (let E := fresh in intros [E|E]; discriminate);
  try (match goal with H3 : _ -> t_cancelled ?s = false |- _ -> t_cancelled ?s = false => intros _; apply H3; left; reflexivity end);
  try (match goal with H : ?i = ?p ++ ?q |- exists a b, ?i = a ++ b /\ _ => exists p, q; repeat split; try assumption; solve [discriminate | auto] end).
Lemma jt_step ids ch tr c x e c' : JT ids tr c -> jfire ids ch c x = Some (e, c') -> JT ids (tr ++ jev e) c'.
Proof.
  intros [H1 H2 H3 H4 (p & q & H5 & H6 & H7) H8]. jp c. unfold opened in *. cbn [j_st] in *.
  assert (HR : exists p q, ids = p ++ q /\ sub (read_ids tr) p /\ (false = true -> q = [])) by (exists p, q; repeat split; try assumption; discriminate).
  destruct x as [ok n|n| |failed|m'| | |]; cbn [jfire j_pc j_st j_db j_out j_pend j_bad j_cut j_hook].
  - destruct pc as [|[|id rest]|id rest|id rest| | | |].
    + destruct ok; intros [= <- <-]; unfold go; jcbn; rewrite app_nil_r.
      * split; jcbn; jauto.
      * split; unfold opened; jcbn; jauto.
        intros _ HO. exfalso. apply HO, in_err.
    + intros [= <- <-]; unfold give, go; jcbn; rewrite app_nil_r. split; jcbn; jauto.
    + destruct cut; intros [= <- <-]; unfold go; jcbn; rewrite app_nil_r.
      * split; jcbn; jauto.
      * split; jcbn; jauto.
    + specialize (H7 eq_refl). cbn [todo] in H7. subst q.
      assert (E0 : JT ids tr (mkJ (JTop rest) (st_err st id) m out pend bad cut hook)).
      { split; unfold opened; jcbn; jauto.
        - intros HC HO. destruct (H4 HC (opened_le _ _ HO)) as (p1 & E1 & S1 & F1). exists (p1 ++ [id]). rewrite <- app_assoc. split; [exact E1|]. split.
          + intros k Hk. apply in_app_iff in Hk as [Hk|[<-|[]]]; [apply settled_err; auto|right; apply in_err].
          + intros E. exfalso. exact (err_ne _ _ E).
        - exists (p ++ [id]), rest. rewrite <- app_assoc. repeat split; try assumption. apply sub_app_skip, H6. }
      destruct (m id) as [[d l]|]; [destruct ok|]; intros [= <- <-]; unfold give, go; jcbn; rewrite ?app_nil_r; [|exact E0|exact E0].
      assert (ER : read_ids (tr ++ [JRead id d l]) = read_ids tr ++ [id]) by apply read_ids_app.
      split; unfold opened; jcbn; rewrite ?ER; auto.
      * exists (p ++ [id]), rest. rewrite <- app_assoc. repeat split; try assumption. apply sub_app_take, H6.
      * exists (read_ids tr). destruct H8 as [A B]. auto.
    + specialize (H7 eq_refl). destruct H8 as (r & HR1 & HR2 & HR3).
      destruct ok; [|destruct bad]; intros [= <- <-]; unfold go; jcbn; rewrite ?app_nil_r.
      * split; unfold opened; jcbn.
        -- cbn [st_ok t_ndone t_success]. rewrite app_length, H1. cbn. lia.
        -- exact H2.
        -- intros _. apply H3. left. reflexivity.
        -- intros HC HO. destruct (H4 HC HO) as (p1 & E1 & S1 & F1). exists (p1 ++ [id]). rewrite <- app_assoc. split; [exact E1|]. split.
           ++ intros k Hk. apply in_app_iff in Hk as [Hk|[<-|[]]]; [apply settled_ok; auto|left; cbn; apply in_or_app; right; left; reflexivity].
           ++ intros E. cbn [st_ok t_success]. rewrite F1; auto.
        -- exists p, q. auto.
        -- rewrite HR1. cbn [st_ok t_success]. split; [apply sub_app_take; assumption|]. intros E. rewrite HR3; auto.
      * split; unfold opened; jcbn; jauto.
        -- intros HC HO. destruct (H4 HC (opened_le _ _ HO)) as (p1 & E1 & S1 & F1). exists (p1 ++ [id]). rewrite <- app_assoc. split; [exact E1|]. split.
           ++ intros k Hk. apply in_app_iff in Hk as [Hk|[<-|[]]]; [apply settled_err; auto|right; apply in_err].
           ++ intros E. exfalso. exact (err_ne _ _ E).
        -- rewrite HR1. split; [apply sub_app_skip; assumption|discriminate].
    + assert (HC := H3 (or_intror eq_refl)).
      destruct ok; [|destruct bad]; intros [= <- <-]; unfold go; jcbn; rewrite ?app_nil_r; (split; unfold opened; jcbn; jauto).
      intros _ HO. destruct (H4 HC (opened_le _ _ HO)) as (p1 & E1 & S1 & F1). exists p1. split; [exact E1|]. split; [intros k Hk; apply settled_err; auto|].
      intros E. exfalso. exact (err_ne _ _ E).
    + destruct pend, bad; intros [= <- <-]; unfold go; jcbn; rewrite ?app_nil_r; (split; jcbn; jauto).
    + destruct ch; intros [= <- <-]; jcbn; rewrite app_nil_r. split; jcbn; jauto.
    + discriminate.
  - destruct bad; intros [= <- <-]; jcbn; rewrite app_nil_r. split; jcbn; jauto.
  - intros [= <- <-]; jcbn; rewrite app_nil_r. split; jcbn; jauto.
    destruct pc; try (split; [tauto|discriminate]). destruct H8 as (r & A & B & C). exists r. repeat split; auto. discriminate.
  - destruct pc, ch; intros E; try discriminate. injection E as <- <-. jcbn. rewrite app_nil_r. destruct failed; (split; unfold opened; jcbn; jauto).
    + intros HC HO. destruct (H4 HC (opened_le _ _ HO)) as (p1 & E1 & S1 & F1). exists p1. split; [exact E1|]. split; [intros k Hk; apply (settled_err st "delayed_error" k); auto|].
      intros E. exfalso. exact (err_ne _ _ E).
  - intros [= <- <-]; jcbn; rewrite app_nil_r. split; jcbn; jauto.
  - intros [= <- <-]; jcbn; rewrite app_nil_r. split; jcbn; jauto.
  - intros [= <- <-]; jcbn; rewrite app_nil_r. split; jcbn; jauto.
  - intros [= <- <-]; jcbn; rewrite app_nil_r. split; jcbn; jauto.
Qed.

Lemma jinv ok ids ch m tr c : jexec ok ids ch m tr c -> JS tr c /\ JT ids tr c.
Proof.
  induction 1 as [|tr c x e c' H [IS IT] Hx Hf]; [split; [apply js_start|apply jt_start]|].
  split; [eapply js_step|eapply jt_step]; eassumption.
Qed.

(** ** the stream, and what restoring it brings back *)
Lemma c60_stream ids ch m tr c : jexec any_choice ids ch m tr c -> exists b, full_stream tr = j_out c ++ b.
Proof.
  intros H. destruct (jinv _ _ _ _ _ _ H) as [[_ [b E] _ _ _ _] _]. unfold full_stream. fold (recs tr).
  destruct (early (j_pc c)).
  - rewrite app_nil_r in E. exists (j_pend c ++ b ++ w_bool false). rewrite E, <- !app_assoc. reflexivity.
  - exists (j_pend c ++ b). exact E.
Qed.

Lemma as_read_in tr id d l : as_read tr id = Some (d, l) -> In (JRead id d l) tr.
Proof.
  induction tr as [|[k d' l'] tr IH]; cbn; [discriminate|]. destruct (string_dec id k) as [->|]; [intros [= -> ->]; left; reflexivity|auto].
Qed.
Lemma as_read_some tr id : In id (read_ids tr) -> as_read tr id <> None.
Proof. induction tr as [|[k d' l'] tr IH]; cbn; [tauto|]. destruct (string_dec id k); [discriminate|]. intros [E|E]; [congruence|auto]. Qed.
Lemma records_ext f g ids : (forall id, In id ids -> f id = g id) -> records f ids = records g ids.
Proof.
  induction ids as [|id ids IH]; intros H; [reflexivity|]. rewrite !records_cons, (H id (or_introl eq_refl)), IH; [reflexivity|].
  intros k Hk. apply H. right. exact Hk.
Qed.
Lemma records_read tr : NoDup (read_ids tr) -> records (as_read tr) (read_ids tr) = recs tr.
Proof.
  induction tr as [|[id d l] tr IH]; cbn [read_ids map as_read]; intros ND; [reflexivity|].
  inversion ND as [|? ? P Q]; subst. rewrite records_cons. destruct (string_dec id id) as [_|N]; [|congruence]. change (recs (JRead id d l :: tr)) with (record_bytes d l ++ recs tr).
  f_equal. rewrite <- (IH Q). apply records_ext. intros k Hk. destruct (string_dec k id) as [->|]; [contradiction|reflexivity].
Qed.
Lemma job_read tr : NoDup (read_ids tr) -> job_bytes (as_read tr) (read_ids tr) = full_stream tr.
Proof. intros ND. unfold job_bytes. rewrite (records_read tr ND). reflexivity. Qed.

Lemma jfire_db ids ch c x e c' : jfire ids ch c x = Some (e, c') ->
  (j_db c' = j_db c \/ x = J_lists (j_db c')) /\ (forall id d l, e = Some (JRead id d l) -> j_db c id = Some (d, l)).
Proof.
  jp c. destruct x as [ok n|n| |failed|m'| | |]; cbn [jfire j_pc j_st j_db j_out j_pend j_bad j_cut j_hook]; intros E.
  - destruct pc as [|[|id rest]|id rest|id rest| | | |]; try (injection E as <- <-; split; [left|]; (reflexivity || (intros; discriminate))).
    + destruct ok; injection E as <- <-; (split; [left; reflexivity|intros; discriminate]).
    + destruct cut; injection E as <- <-; (split; [left; reflexivity|intros; discriminate]).
    + destruct (m id) as [[d l]|] eqn:Em; [destruct ok|]; injection E as <- <-; (split; [left; reflexivity|]); try (intros; discriminate).
      intros i d1 l1 [= <- <- <-]. exact Em.
    + destruct ok; [|destruct bad; [|discriminate]]; injection E as <- <-; (split; [left; reflexivity|intros; discriminate]).
    + destruct ok; [|destruct bad; [|discriminate]]; injection E as <- <-; (split; [left; reflexivity|intros; discriminate]).
    + destruct pend, bad; try discriminate; injection E as <- <-; (split; [left; reflexivity|intros; discriminate]).
    + destruct ch; try discriminate; injection E as <- <-; (split; [left; reflexivity|intros; discriminate]).
    + discriminate.
  - destruct bad; try discriminate; injection E as <- <-; (split; [left; reflexivity|intros; discriminate]).
  - injection E as <- <-; (split; [left; reflexivity|intros; discriminate]).
  - destruct pc, ch; try discriminate; injection E as <- <-; (split; [left; reflexivity|intros; discriminate]).
  - injection E as <- <-; split; [right; reflexivity|intros; discriminate].
  - injection E as <- <-; (split; [left; reflexivity|intros; discriminate]).
  - injection E as <- <-; (split; [left; reflexivity|intros; discriminate]).
  - injection E as <- <-; (split; [left; reflexivity|intros; discriminate]).
Qed.

Lemma reads_sound ids ch m tr c : sound_db m -> jexec sound_lists ids ch m tr c ->
  sound_db (j_db c) /\ forall id d l, In (JRead id d l) tr -> exists m' : db, sound_db m' /\ m' id = Some (d, l).
Proof.
  intros Hm. induction 1 as [|tr c x e c' H [IS IR] Hx Hf]; [split; [exact Hm|intros ? ? ? []]|].
  destruct (jfire_db _ _ _ _ _ _ Hf) as [[E|E] HR]; (split; [try (rewrite E; exact IS); try (subst x; exact Hx)|]); intros id d l Hin;
    apply in_app_iff in Hin as [Hin|Hin]; eauto; (destruct e as [[i d1 l1]|]; [|destruct Hin]); cbn in Hin; (destruct Hin as [[= -> -> ->]|[]]); exists (j_db c); auto.
Qed.
Lemma as_read_sound ids ch m tr c : sound_db m -> jexec sound_lists ids ch m tr c -> sound_db (as_read tr).
Proof.
  intros Hm H id d l E. destruct (reads_sound _ _ _ _ _ Hm H) as [_ HR]. destruct (HR id d l (as_read_in _ _ _ _ E)) as (m' & S & E'). exact (S _ _ _ E').
Qed.
Lemma jexec_any ok ids ch m tr c : jexec ok ids ch m tr c -> jexec any_choice ids ch m tr c.
Proof. induction 1; econstructor; try eassumption. exact Logic.I. Qed.

Lemma succ_in ids tr c : JT ids tr c -> incl (t_success (j_st c)) (read_ids tr).
Proof.
  intros [_ _ _ _ _ H8] k Hk. destruct (j_pc c); try (destruct H8 as [S _]; exact (sub_in _ _ S _ Hk)).
  destruct H8 as (r & E & S & _). rewrite E. apply in_or_app. left. exact (sub_in _ _ S _ Hk).
Qed.
Lemma reads_sub ids tr c : JT ids tr c -> sub (read_ids tr) ids.
Proof. intros [_ _ _ _ (p & q & -> & S & _) _]. apply sub_trans_app, S. Qed.

Lemma c60_restore ids ch m tr c fr pre suf rep m0 : NoDup ids -> sound_db m -> (forall n, given_ok (fr n)) -> jexec sound_lists ids ch m tr c ->
  incl (t_success (j_st c)) (read_ids tr) /\ (forall id, In id (read_ids tr) -> as_read tr id <> None) /\
  ((exists r s m', restore_all fr pre suf rep m0 (j_out c) = (JDone r s, m') /\ brought_back (as_read tr) (read_ids tr) pre suf rep m0 m') \/
   (exists some rest m', read_ids tr = some ++ rest /\ restore_all fr pre suf rep m0 (j_out c) = (JErr, m') /\ brought_back (as_read tr) some pre suf rep m0 m')).
Proof.
  intros ND Hm Hfr H. destruct (jinv _ _ _ _ _ _ H) as [_ T]. split; [exact (succ_in _ _ _ T)|]. split; [apply as_read_some|].
  assert (NR : NoDup (read_ids tr)) by (eapply sub_nodup; [exact (reads_sub _ _ _ T)|exact ND]).
  pose proof (as_read_sound _ _ _ _ _ Hm H) as SR.
  destruct (c60_stream _ _ _ _ _ (jexec_any _ _ _ _ _ _ H)) as [b E]. rewrite <- (job_read tr NR) in E.
  destruct b as [|y b].
  - left. rewrite app_nil_r in E. rewrite <- E. destruct (c46_job (as_read tr) (read_ids tr) fr pre suf rep m0 [] SR Hfr) as (r & s & m' & E1 & B & _).
    rewrite app_nil_r in E1. exists r, s, m'. auto.
  - right. destruct (c46_cut (as_read tr) (read_ids tr) fr pre suf rep m0 _ _ SR Hfr E) as (i1 & i2 & m' & A & B & C); [discriminate|]. exists i1, i2, m'. auto.
Qed.

Lemma found_all tr ids : (forall id, In id ids -> as_read tr id <> None) -> found (as_read tr) ids = length ids.
Proof.
  unfold found. induction ids as [|id ids IH]; intros H; [reflexivity|]. cbn [filter]. pose proof (H id (or_introl eq_refl)) as Hi.
  destruct (as_read tr id); [|congruence]. cbn [length]. f_equal. apply IH. intros k Hk. apply H. right. exact Hk.
Qed.

Lemma over_pc ids tr c : JT ids tr c -> over c -> j_pc c = JOver.
Proof. intros [_ H _ _ _ _] HO. unfold over in HO. rewrite HO in H. destruct (j_pc c); congruence. Qed.

Lemma c60_complete ids ch m tr c fr pre suf rep m0 : NoDup ids -> sound_db m -> (forall n, given_ok (fr n)) -> jexec sound_lists ids ch m tr c ->
  over c -> t_cancelled (j_st c) = false -> opened c -> j_bad c = false ->
  t_success (j_st c) = read_ids tr /\
  exists r s m', restore_all fr pre suf rep m0 (j_out c) = (JDone r s, m') /\ brought_back (as_read tr) (t_success (j_st c)) pre suf rep m0 m' /\
    r + s = length (t_success (j_st c)) /\ (rep = true -> s = 0).
Proof.
  intros ND Hm Hfr H HO HC Hop HB. destruct (jinv _ _ _ _ _ _ H) as [S T]. pose proof (over_pc _ _ _ T HO) as Epc.
  assert (NR : NoDup (read_ids tr)) by (eapply sub_nodup; [exact (reads_sub _ _ _ T)|exact ND]).
  pose proof (as_read_sound _ _ _ _ _ Hm H) as SR.
  assert (ES : t_success (j_st c) = read_ids tr). { destruct T as [_ _ _ _ _ H8]. rewrite Epc in H8. apply H8, HB. }
  split; [exact ES|]. rewrite ES.
  destruct S as [_ _ _ _ HA HL]. rewrite Epc in *. specialize (HA HB eq_refl HC Hop). rewrite (HL eq_refl), app_nil_r in HA.
  change (recs tr ++ w_bool false) with (full_stream tr) in HA. rewrite <- (job_read tr NR) in HA. rewrite <- HA.
  destruct (c46_job (as_read tr) (read_ids tr) fr pre suf rep m0 [] SR Hfr) as (r & s & m' & E1 & B & N & Z).
  rewrite app_nil_r in E1. exists r, s, m'. rewrite (found_all tr (read_ids tr) (as_read_some tr)) in N. auto.
Qed.

(** ** the status *)
Lemma c60_status ids ch m tr c : jexec any_choice ids ch m tr c ->
  t_ndone (j_st c) = length (t_success (j_st c)) /\ incl (t_success (j_st c)) ids /\
  (over c -> t_cancelled (j_st c) = false -> opened c ->
   (forall id, In id ids -> In id (t_success (j_st c)) \/ In id (t_errs (j_st c))) /\ (t_errs (j_st c) = [] -> t_success (j_st c) = ids)).
Proof.
  intros H. destruct (jinv _ _ _ _ _ _ H) as [_ T]. split; [apply (jt_n _ _ _ T)|]. split.
  - intros k Hk. apply (sub_in _ _ (reads_sub _ _ _ T)), (succ_in _ _ _ T), Hk.
  - intros HO HC Hop. pose proof (over_pc _ _ _ T HO) as Epc. destruct (jt_ids _ _ _ T HC Hop) as (p & E & S & F). rewrite Epc in E. cbn [todo] in E.
    rewrite app_nil_r in E. subst p. auto.
Qed.

(** ** progress *)
Lemma c60_moves ids ch m tr c : jexec any_choice ids ch m tr c -> ~ over c ->
  exists c1, (c1 = c \/ exists n, jfire ids ch c (J_flow n) = Some (None, c1)) /\ exists x e c2, is_job x = true /\ jfire ids ch c1 x = Some (e, c2).
Proof.
  intros H HO. destruct (jinv _ _ _ _ _ _ H) as [S T]. pose proof (jt_done _ _ _ T) as D. pose proof (js_bad _ _ S) as B. unfold over in HO. clear S T H. destruct c as [pc st m0 out pend bad cut hook]; cbn [j_pc j_st j_db j_out j_pend j_bad j_cut j_hook] in *.
  assert (G : forall x, is_job x = true -> jfire ids ch (mkJ pc st m0 out pend bad cut hook) x <> None ->
     exists c1, (c1 = mkJ pc st m0 out pend bad cut hook \/ exists n, jfire ids ch (mkJ pc st m0 out pend bad cut hook) (J_flow n) = Some (None, c1)) /\
       exists x e c2, is_job x = true /\ jfire ids ch c1 x = Some (e, c2)).
  { intros x Hx Hf. eexists. split; [left; reflexivity|]. destruct (jfire _ _ _ x) as [[e c2]|] eqn:E; [|congruence]. exists x, e, c2. auto. }
  destruct pc as [|[|id rest]|id rest|id rest| | | |]; try (apply (G (J_go true 0)); [reflexivity|cbn; discriminate]).
  - apply (G (J_go true 0)); [reflexivity|cbn; destruct cut; discriminate].
  - apply (G (J_go true 0)); [reflexivity|cbn [jfire j_pc j_db]; destruct (m0 id) as [[d l]|]; discriminate].
  - destruct bad.
    + apply (G (J_go true 0)); [reflexivity|cbn; destruct pend; discriminate].
    + eexists. split; [right; exists (length pend); reflexivity|]. exists (J_go true 0), None. cbn [jfire j_pc j_pend j_bad]. rewrite skipn_all. eexists. split; reflexivity.
  - destruct ch; [apply (G (J_result false))|apply (G (J_go true 0))]; try reflexivity; cbn; discriminate.
  - congruence.
Qed.

Definition mu (ids : list string) (pc : jpc) : nat :=
  match pc with JSave => 3 * length ids + 6 | JTop r => 3 * length r + 5 | JFind _ r => 3 * length r + 7 | JWrote _ r => 3 * length r + 6
  | JLast => 4 | JClose => 3 | JWait => 2 | JOver => 0 end.
Lemma mu_step ids ch c x e c' : jfire ids ch c x = Some (e, c') -> mu ids (j_pc c') + (if is_job x then 1 else 0) <= mu ids (j_pc c).
Proof.
  jp c. destruct x as [ok n|n| |failed|m'| | |]; cbn [jfire j_pc j_st j_db j_out j_pend j_bad j_cut j_hook]; intros E.
  - destruct pc as [|[|id rest]|id rest|id rest| | | |].
    + destruct ok; injection E as <- <-; cbn [go j_pc mu is_job]; lia.
    + injection E as <- <-. cbn. lia.
    + destruct cut; injection E as <- <-; cbn [go j_pc mu is_job length]; lia.
    + destruct (m id) as [[d l]|]; [destruct ok|]; injection E as <- <-; cbn [give go j_pc mu is_job length]; lia.
    + destruct ok; [|destruct bad; [|discriminate]]; injection E as <- <-; cbn [go j_pc mu is_job length]; lia.
    + destruct ok; [|destruct bad; [|discriminate]]; injection E as <- <-; cbn; lia.
    + destruct pend, bad; try discriminate; injection E as <- <-; cbn; lia.
    + destruct ch; try discriminate; injection E as <- <-; cbn; lia.
    + discriminate.
  - destruct bad; try discriminate; injection E as <- <-; cbn [is_job j_pc]; lia.
  - injection E as <- <-; cbn [is_job j_pc]; lia.
  - destruct pc, ch; try discriminate; injection E as <- <-; cbn; lia.
  - injection E as <- <-; cbn [is_job j_pc]; lia.
  - injection E as <- <-; cbn [is_job j_pc]; lia.
  - injection E as <- <-; cbn [is_job j_pc]; lia.
  - injection E as <- <-; cbn [is_job j_pc]; lia.
Qed.
Lemma c60_ends ids ch m n tr c : jgoes ids ch (jstart m) n tr c -> n <= 3 * length ids + 6.
Proof.
  intros H. assert (G : mu ids (j_pc c) + n <= mu ids (j_pc (jstart m))).
  { induction H as [c|c n tr c1 x e c2 H IH Hf]; [lia|]. pose proof (mu_step _ _ _ _ _ _ Hf). destruct (is_job x); lia. }
  cbn [mu jstart j_pc] in G. lia.
Qed.

(** ** what has been reported stays *)
Lemma grow_step ids ch c x e c' : jfire ids ch c x = Some (e, c') ->
  (exists more, t_success (j_st c') = t_success (j_st c) ++ more) /\ incl (t_errs (j_st c)) (t_errs (j_st c')) /\ (exists b, j_out c' = j_out c ++ b) /\
  (j_cut c = true -> j_cut c' = true) /\
  (j_pc c = JOver -> j_pc c' = JOver /\ j_st c' = j_st c /\ (j_pend c = [] -> j_pend c' = [] /\ j_out c' = j_out c)).
Proof.
  jp c. destruct x as [ok n|n| |failed|m'| | |]; cbn [jfire j_pc j_st j_db j_out j_pend j_bad j_cut j_hook]; intros E.
  - assert (Z : forall k, incl (t_errs st) (t_errs (st_err st k))) by (intros k y; apply err_more).
    assert (N : forall (l : list string), exists more, l = l ++ more) by (intros l; exists []; rewrite app_nil_r; reflexivity).
    assert (N' : forall (l : wire), exists more, l = l ++ more) by (intros l; exists []; rewrite app_nil_r; reflexivity).
    destruct pc as [|[|id rest]|id rest|id rest| | | |].
    + destruct ok; injection E as <- <-; cbn [go j_pc j_st j_out j_cut t_success st_err]; repeat split; auto using incl_refl; try discriminate.
    + injection E as <- <-. cbn [give go j_pc j_st j_out j_cut]. repeat split; auto using incl_refl; discriminate.
    + destruct cut; injection E as <- <-; cbn [go j_pc j_st j_out j_cut st_cancel t_success t_errs]; repeat split; auto using incl_refl; discriminate.
    + destruct (m id) as [[d l]|]; [destruct ok|]; injection E as <- <-; cbn [give go j_pc j_st j_out j_cut]; repeat split; auto using incl_refl; try discriminate; apply N.
    + destruct ok; [|destruct bad; [|discriminate]]; injection E as <- <-; cbn [go j_pc j_st j_out j_cut]; repeat split; auto using incl_refl; try discriminate; try apply N; eexists; reflexivity.
    + destruct ok; [|destruct bad; [|discriminate]]; injection E as <- <-; cbn [go j_pc j_st j_out j_cut]; repeat split; auto using incl_refl; try discriminate; apply N.
    + destruct pend, bad; try discriminate; injection E as <- <-; cbn [go j_pc j_st j_out j_cut]; repeat split; auto using incl_refl; discriminate.
    + destruct ch; try discriminate; injection E as <- <-; cbn [j_pc j_st j_out j_cut]; repeat split; auto using incl_refl; discriminate.
    + discriminate.
  - destruct bad; try discriminate; injection E as <- <-; cbn [j_pc j_st j_out j_cut j_pend].
    split; [exists []; rewrite app_nil_r; reflexivity|]. split; [apply incl_refl|]. split; [eexists; reflexivity|]. split; [auto|]. intros ->. repeat split; subst; rewrite ?firstn_nil, ?skipn_nil, ?app_nil_r; reflexivity.
  - injection E as <- <-; cbn [j_pc j_st j_out j_cut j_pend].
    split; [exists []; rewrite app_nil_r; reflexivity|]. split; [apply incl_refl|]. split; [exists []; rewrite app_nil_r; reflexivity|]. auto.
  - destruct pc, ch; try discriminate; injection E as <- <-; cbn [j_pc j_st j_out j_cut j_pend].
    split; [exists []; rewrite app_nil_r; destruct failed; reflexivity|]. split; [destruct failed; [intros y; apply (err_more st "delayed_error" y)|apply incl_refl]|].
    split; [exists []; rewrite app_nil_r; reflexivity|]. split; [auto|discriminate].
  - injection E as <- <-; cbn [j_pc j_st j_out j_cut j_pend].
    split; [exists []; rewrite app_nil_r; reflexivity|]. split; [apply incl_refl|]. split; [exists []; rewrite app_nil_r; reflexivity|]. auto.
  - injection E as <- <-; cbn [j_pc j_st j_out j_cut j_pend].
    split; [exists []; rewrite app_nil_r; reflexivity|]. split; [apply incl_refl|]. split; [exists []; rewrite app_nil_r; reflexivity|]. auto.
  - injection E as <- <-; cbn [j_pc j_st j_out j_cut j_pend].
    split; [exists []; rewrite app_nil_r; reflexivity|]. split; [apply incl_refl|]. split; [exists []; rewrite app_nil_r; reflexivity|]. auto.
  - injection E as <- <-; cbn [j_pc j_st j_out j_cut j_pend].
    split; [exists []; rewrite app_nil_r; reflexivity|]. split; [apply incl_refl|]. split; [exists []; rewrite app_nil_r; reflexivity|]. split; [intros ->; reflexivity|auto].
Qed.

Lemma c60_grows ids ch m tr c n tr' c' : jexec any_choice ids ch m tr c -> jgoes ids ch c n tr' c' ->
  (exists more, t_success (j_st c') = t_success (j_st c) ++ more) /\ incl (t_errs (j_st c)) (t_errs (j_st c')) /\ (exists b, j_out c' = j_out c ++ b) /\
  (over c -> j_st c' = j_st c /\ j_out c' = j_out c).
Proof.
  intros H HG. destruct (jinv _ _ _ _ _ _ H) as [S T].
  assert (G : (exists more, t_success (j_st c') = t_success (j_st c) ++ more) /\ incl (t_errs (j_st c)) (t_errs (j_st c')) /\ (exists b, j_out c' = j_out c ++ b) /\
     (j_pc c = JOver -> j_pend c = [] -> j_pc c' = JOver /\ j_pend c' = [] /\ j_st c' = j_st c /\ j_out c' = j_out c)).
  { clear H S T. induction HG as [c|c n tr' c1 x e c2 HG IH Hf].
    - repeat split; auto using incl_refl; exists []; rewrite app_nil_r; reflexivity.
    - destruct IH as ((m1 & A1) & A2 & (b1 & A3) & A4). destruct (grow_step _ _ _ _ _ _ Hf) as ((m2 & B1) & B2 & (b2 & B3) & _ & B5).
      split; [exists (m1 ++ m2); rewrite B1, A1, app_assoc; reflexivity|]. split; [eapply incl_tran; eassumption|]. split; [exists (b1 ++ b2); rewrite B3, A3, app_assoc; reflexivity|].
      intros P Q. destruct (A4 P Q) as (C1 & C2 & C3 & C4). destruct (B5 C1) as (D1 & D2 & D3). destruct (D3 C2) as (D4 & D5). repeat split; congruence. }
  destruct G as (A & B & C & D). split; [exact A|]. split; [exact B|]. split; [exact C|]. intros HO. pose proof (over_pc _ _ _ T HO) as Epc.
  destruct (D Epc) as (_ & _ & E1 & E2); [apply (js_late _ _ S); rewrite Epc; reflexivity|]. auto.
Qed.

(** ** cancelling *)
Definition past (pc : jpc) : nat := match pc with JFind _ _ => 1 | _ => 0 end.
Lemma cut_step ids ch c x e c' : j_cut c = true -> jfire ids ch c x = Some (e, c') -> length (jev e) + past (j_pc c') <= past (j_pc c).
Proof.
  jp c. intros ->. destruct x as [ok n|n| |failed|m'| | |]; cbn [jfire j_pc j_st j_db j_out j_pend j_bad j_cut j_hook]; intros E.
  - destruct pc as [|[|id rest]|id rest|id rest| | | |].
    + destruct ok; injection E as <- <-; cbn; lia.
    + injection E as <- <-. cbn. lia.
    + injection E as <- <-. cbn. lia.
    + destruct (m id) as [[d l]|]; [destruct ok|]; injection E as <- <-; cbn; lia.
    + destruct ok; [|destruct bad; [|discriminate]]; injection E as <- <-; cbn; lia.
    + destruct ok; [|destruct bad; [|discriminate]]; injection E as <- <-; cbn; lia.
    + destruct pend, bad; try discriminate; injection E as <- <-; cbn; lia.
    + destruct ch; try discriminate; injection E as <- <-; cbn; lia.
    + discriminate.
  - destruct bad; try discriminate; injection E as <- <-; cbn; lia.
  - injection E as <- <-; cbn; lia.
  - destruct pc, ch; try discriminate; injection E as <- <-; cbn; lia.
  - injection E as <- <-; cbn; lia.
  - injection E as <- <-; cbn; lia.
  - injection E as <- <-; cbn; lia.
  - injection E as <- <-; cbn; lia.
Qed.
Lemma cut_goes ids ch c n tr c' : j_cut c = true -> jgoes ids ch c n tr c' -> length tr <= 1.
Proof.
  intros HC HG. assert (G : j_cut c' = true /\ length tr + past (j_pc c') <= past (j_pc c)).
  { induction HG as [c|c n tr c1 x e c2 HG IH Hf]; [cbn; auto|]. destruct (IH HC) as [A B]. split.
    - apply (grow_step _ _ _ _ _ _ Hf), A.
    - pose proof (cut_step _ _ _ _ _ _ A Hf). rewrite app_length. lia. }
  destruct G as [_ G]. unfold past in G. destruct (j_pc c); lia.
Qed.
Lemma c60_cancel ids ch c x e c1 n tr c' : jfire ids ch c x = Some (e, c1) -> x = J_cancel \/ (x = J_shutdown /\ j_hook c = true) ->
  jgoes ids ch c1 n tr c' -> length tr <= 1.
Proof.
  intros Hf Hx HG. eapply cut_goes; [|exact HG]. destruct Hx as [->|[-> Hh]]; cbn in Hf; injection Hf as <- <-; cbn [j_cut]; [reflexivity|].
  rewrite Hh. apply orb_true_r.
Qed.

Lemma jplay_exec ok ids ch m l : Forall ok l -> forall tr0 c tr c', jexec ok ids ch m tr0 c -> jplay ids ch c l = Some (tr, c') -> jexec ok ids ch m (tr0 ++ tr) c'.
Proof.
  induction 1 as [|x l Hx Hl IH]; cbn; intros tr0 c tr c' H.
  - intros [= <- <-]. rewrite app_nil_r. exact H.
  - destruct (jfire ids ch c x) as [[e c1]|] eqn:Ef; [|discriminate]. destruct (jplay ids ch c1 l) as [[tr1 c2]|] eqn:Ep; [|discriminate].
    intros [= <- <-]. rewrite app_assoc. eapply IH; [|exact Ep]. econstructor; eassumption.
Qed.
Lemma jplay_goes ids ch l : forall c0 n0 tr0 c tr c', jgoes ids ch c0 n0 tr0 c -> jplay ids ch c l = Some (tr, c') -> exists n, jgoes ids ch c0 n (tr0 ++ tr) c'.
Proof.
  induction l as [|x l IH]; cbn; intros c0 n0 tr0 c tr c' H.
  - intros [= <- <-]. rewrite app_nil_r. eauto.
  - destruct (jfire ids ch c x) as [[e c1]|] eqn:Ef; [|discriminate]. destruct (jplay ids ch c1 l) as [[tr1 c2]|] eqn:Ep; [|discriminate].
    intros [= <- <-]. rewrite app_assoc. eapply IH; [|exact Ep]. econstructor; eassumption.
Qed.
(** a run is given by what can be computed of it *)
Lemma jplay_see {A} (f : list jevent * jcfg -> A) ids ch c l a : option_map f (jplay ids ch c l) = Some a ->
  exists tr c', jplay ids ch c l = Some (tr, c') /\ f (tr, c') = a.
Proof. destruct (jplay ids ch c l) as [[tr c']|]; [|discriminate]. cbn. intros [= E]. exists tr, c'. auto. Qed.
