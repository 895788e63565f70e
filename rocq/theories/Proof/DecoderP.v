From Verif.Lib Require Import Prelude ListAux.
From Verif.Model Require Import Decoder.
From Verif.Spec Require Import DecoderSpec.
Open Scope nat_scope.

Lemma del_in {A} (x : A) : forall l k, In x (del_nth k l) -> In x l.
Proof. induction l as [|y l IH]; intros [|k] H; cbn in H; auto; [right; exact H|]. destruct H as [->|H]; [left; reflexivity|right; exact (IH k H)]. Qed.
Lemma del_nodup {A} : forall (l : list A) k, NoDup l -> NoDup (del_nth k l).
Proof.
  induction l as [|y l IH]; intros [|k] H; cbn; auto; inversion H; subst; auto. constructor; [|apply IH; assumption]. intros X. apply del_in in X. contradiction.
Qed.
Lemma del_not {A} (a : A) : forall l k, NoDup l -> nth_error l k = Some a -> ~ In a (del_nth k l).
Proof.
  induction l as [|y l IH]; intros [|k] H E; cbn in *; try discriminate; inversion H; subst.
  - injection E as ->. assumption.
  - intros [->|X]; [apply nth_error_In in E; contradiction|exact (IH k ltac:(assumption) E X)].
Qed.
Lemma put_same {A} (f : nat -> A) n v : put_n f n v n = v.
Proof. unfold put_n. rewrite Nat.eqb_refl. reflexivity. Qed.
Lemma put_other {A} (f : nat -> A) n v m : m <> n -> put_n f n v m = f m.
Proof. intros H. unfold put_n. destruct (Nat.eqb_spec m n); [contradiction|reflexivity]. Qed.

Record dinv (s : dcfg) : Prop := {
  di_pool : NoDup (ds_pool s);
  di_lt : forall a, In a (ds_pool s) -> a < ds_n s;
  di_one : forall i j c d a, ds_calls s i = Some c -> ds_calls s j = Some d -> dc_pc c = DRead a -> dc_pc d = DRead a -> i = j;
  di_out : forall i c a, ds_calls s i = Some c -> dc_pc c = DRead a -> a < ds_n s /\ ~ In a (ds_pool s);
  di_src : forall i c a, ds_calls s i = Some c -> dc_pc c = DRead a -> exists l, d_src (ds_dec s a) = Some l /\ dc_src c = dc_got c ++ d_held (ds_dec s a) ++ l;
  di_new : forall i c, ds_calls s i = Some c -> dc_pc c = DNew -> dc_got c = [];
  di_part : forall i c, ds_calls s i = Some c -> first_part (dc_got c) (dc_src c);
  di_ok : ds_bad s = false }.
Lemma dinv_start : dinv dstart.
Proof. constructor; cbn; try discriminate; try contradiction; [constructor|reflexivity]. Qed.

(** a call [i] gets a new state, with the decoder [a] that no other call and no pool has *)
Lemma inv_call s i c a D n pool : dinv s -> dc_pc c = DRead a -> ds_n s <= n -> a < n -> NoDup pool -> (forall b, In b pool -> In b (ds_pool s)) -> ~ In a pool ->
  (forall j d, j <> i -> ds_calls s j = Some d -> dc_pc d <> DRead a) ->
  (exists l, d_src D = Some l /\ dc_src c = dc_got c ++ d_held D ++ l) ->
  dinv (mkDS (put_n (ds_dec s) a D) n pool (put_n (ds_calls s) i (Some c)) (ds_bad s)).
Proof.
  intros I HP Hn Ha ND HS NI HO (l & E1 & E2). constructor; cbn [ds_dec ds_n ds_pool ds_calls ds_bad].
  - exact ND.
  - intros b Hb. pose proof (di_lt s I b (HS b Hb)). lia.
  - intros x y c1 c2 b. unfold put_n. destruct (Nat.eqb_spec x i) as [->|Nx], (Nat.eqb_spec y i) as [->|Ny]; intros X Y P1 P2; auto.
    + injection X as <-. rewrite HP in P1. injection P1 as <-. destruct (HO y c2 Ny Y P2).
    + injection Y as <-. rewrite HP in P2. injection P2 as <-. destruct (HO x c1 Nx X P1).
    + exact (di_one s I x y c1 c2 b X Y P1 P2).
  - intros x c1 b. unfold put_n. destruct (Nat.eqb_spec x i) as [->|Nx]; intros X P1.
    + injection X as <-. rewrite HP in P1. injection P1 as <-. auto.
    + destruct (di_out s I x c1 b X P1) as [H1 H2]. split; [lia|]. intros Y. apply H2, HS, Y.
  - intros x c1 b X P1. destruct (Nat.eq_dec x i) as [->|Nx].
    + rewrite put_same in X. injection X as <-. rewrite HP in P1. injection P1 as <-. rewrite put_same. eauto.
    + rewrite put_other in X by assumption. rewrite put_other; [exact (di_src s I x c1 b X P1)|]. intros ->. exact (HO x c1 Nx X P1).
  - intros x c1. unfold put_n. destruct (Nat.eqb_spec x i) as [->|Nx]; intros X P1; [injection X as <-; congruence|exact (di_new s I x c1 X P1)].
  - intros x c1. unfold put_n. destruct (Nat.eqb_spec x i) as [->|Nx]; intros X; [injection X as <-; rewrite E2; eexists; reflexivity|exact (di_part s I x c1 X)].
  - exact (di_ok s I).
Qed.
(** a call [i] without a decoder *)
Lemma inv_idle s i c : dinv s -> (forall a, dc_pc c <> DRead a) -> (dc_pc c = DNew -> dc_got c = []) -> first_part (dc_got c) (dc_src c) ->
  dinv (mkDS (ds_dec s) (ds_n s) (ds_pool s) (put_n (ds_calls s) i (Some c)) (ds_bad s)).
Proof.
  intros I HP HN HF. constructor; cbn [ds_dec ds_n ds_pool ds_calls ds_bad]; try apply I.
  - intros x y c1 c2 b. unfold put_n. destruct (Nat.eqb_spec x i) as [->|Nx], (Nat.eqb_spec y i) as [->|Ny]; intros X Y P1 P2; auto.
    + injection X as <-. destruct (HP _ P1).
    + injection Y as <-. destruct (HP _ P2).
    + exact (di_one s I x y c1 c2 b X Y P1 P2).
  - intros x c1 b. unfold put_n. destruct (Nat.eqb_spec x i) as [->|Nx]; intros X P1; [injection X as <-; destruct (HP _ P1)|exact (di_out s I x c1 b X P1)].
  - intros x c1 b. unfold put_n. destruct (Nat.eqb_spec x i) as [->|Nx]; intros X P1; [injection X as <-; destruct (HP _ P1)|exact (di_src s I x c1 b X P1)].
  - intros x c1. unfold put_n. destruct (Nat.eqb_spec x i) as [->|Nx]; intros X P1; [injection X as <-; auto|exact (di_new s I x c1 X P1)].
  - intros x c1. unfold put_n. destruct (Nat.eqb_spec x i) as [->|Nx]; intros X; [injection X as <-; exact HF|exact (di_part s I x c1 X)].
Qed.
Lemma inv_close s a : dinv s -> a < ds_n s -> ~ In a (ds_pool s) -> (forall j d, ds_calls s j = Some d -> dc_pc d <> DRead a) -> dinv (d_close s a).
Proof.
  intros I Ha NI HO. constructor; cbn [d_close ds_dec ds_n ds_pool ds_calls ds_bad]; try apply I.
  - constructor; [exact NI|apply I].
  - intros b [<-|Hb]; [exact Ha|exact (di_lt s I b Hb)].
  - intros x c1 b X P1. destruct (di_out s I x c1 b X P1) as [H1 H2]. split; [exact H1|]. intros [->|Y]; [exact (HO x c1 X P1)|contradiction].
  - intros x c1 b X P1. rewrite put_other; [exact (di_src s I x c1 b X P1)|]. intros ->. exact (HO x c1 X P1).
Qed.
Lemma dinv_step s x s' : dinv s -> once x -> dfire s x = Some s' -> dinv s'.
Proof.
  intros I O E. destruct x as [i src cl|i p|i k|i k|i|k|a]; cbn [dfire] in E; [| | | | | |destruct O].
  - destruct (ds_calls s i) eqn:Ei; [discriminate|]. injection E as <-. apply inv_idle; cbn; auto; [intros a X; discriminate X|exists src; reflexivity].
  - destruct (ds_calls s i) as [c|] eqn:Ei; [|discriminate]. destruct (dc_pc c) eqn:Ep; try discriminate. pose proof (di_new s I i c Ei Ep) as HG. destruct p as [k|].
    + destruct (nth_error (ds_pool s) k) as [a|] eqn:Ea; [|discriminate]. injection E as <-. unfold reset_to. pose proof (nth_error_In _ _ Ea) as Hin.
      apply inv_call; auto.
      * exact (di_lt s I a Hin).
      * apply del_nodup, I.
      * intros b. apply del_in.
      * apply del_not; [apply I|exact Ea].
      * intros j d _ X P. apply (proj2 (di_out s I j d a X P)), Hin.
      * exists (dc_src c). cbn [d_src d_held dc_src dc_got]. rewrite HG. split; reflexivity.
    + injection E as <-. unfold reset_to. apply inv_call; auto.
      * apply I.
      * intros X. pose proof (di_lt s I _ X). lia.
      * intros j d _ X P. pose proof (proj1 (di_out s I j d _ X P)). lia.
      * exists (dc_src c). cbn [d_src d_held dc_src dc_got]. rewrite HG. split; reflexivity.
  - destruct (ds_calls s i) as [[src cl [|a|] got]|] eqn:Ei; try discriminate. destruct (di_src s I i _ a Ei eq_refl) as (l & E1 & E2). cbn [dc_src dc_got] in E2. rewrite E1 in E.
    injection E as <-. destruct (di_out s I i _ a Ei eq_refl) as [H1 H2].
    pose proof (inv_call s i (mkDC src cl (DRead a) got) a (mkD (Some (skipn k l)) (d_held (ds_dec s a) ++ firstn k l)) (ds_n s) (ds_pool s) I eq_refl (le_n _) H1 (di_pool s I) (fun _ H => H) H2) as J.
    assert (K : dinv (mkDS (put_n (ds_dec s) a (mkD (Some (skipn k l)) (d_held (ds_dec s a) ++ firstn k l))) (ds_n s) (ds_pool s) (put_n (ds_calls s) i (Some (mkDC src cl (DRead a) got))) (ds_bad s))).
    { apply J.
      - intros j d N X P. apply N. exact (di_one s I j i d _ a X Ei P eq_refl).
      - exists (skipn k l). cbn [d_src d_held dc_src dc_got]. split; [reflexivity|]. rewrite <- app_assoc, firstn_skipn. exact E2. }
    clear J. assert (Q : forall j, put_n (ds_calls s) i (Some (mkDC src cl (DRead a) got)) j = ds_calls s j).
    { intros j. unfold put_n. destruct (Nat.eqb_spec j i) as [->|]; congruence. }
    destruct K as [K1 K2 K3 K4 K5 K6 K7 K8]. cbn [ds_dec ds_n ds_pool ds_calls ds_bad] in *.
    constructor; cbn [ds_dec ds_n ds_pool ds_calls ds_bad]; auto.
    + intros x y c d b X Y. apply (K3 x y c d b); rewrite Q; assumption.
    + intros x c b X. apply (K4 x c b). rewrite Q. exact X.
    + intros x c b X. apply (K5 x c b). rewrite Q. exact X.
    + intros x c X. apply (K6 x c). rewrite Q. exact X.
    + intros x c X. apply (K7 x c). rewrite Q. exact X.
  - destruct (ds_calls s i) as [[src cl [|a|] got]|] eqn:Ei; try discriminate. destruct (Nat.leb_spec k (length (d_held (ds_dec s a)))); [|discriminate].
    injection E as <-. destruct (di_src s I i _ a Ei eq_refl) as (l & E1 & E2). destruct (di_out s I i _ a Ei eq_refl) as [H1 H2]. cbn [dc_src dc_got] in E2.
    apply inv_call; auto.
    + apply I.
    + intros j d N X P. apply N. exact (di_one s I j i d _ a X Ei P eq_refl).
    + exists l. cbn [d_src d_held dc_src dc_got]. split; [exact E1|]. rewrite E2, <- app_assoc, (app_assoc (firstn k _)), firstn_skipn. reflexivity.
  - destruct (ds_calls s i) as [[src cl [|a|] got]|] eqn:Ei; try discriminate. injection E as <-.
    assert (J : dinv (mkDS (ds_dec s) (ds_n s) (ds_pool s) (put_n (ds_calls s) i (Some (mkDC src cl DEnd got))) (ds_bad s))).
    { apply inv_idle; cbn; auto; try (intros; discriminate). exact (di_part s I i _ Ei). }
    destruct cl; [|exact J]. destruct (di_out s I i _ a Ei eq_refl) as [H1 H2]. apply inv_close; auto.
    cbn [ds_calls]. intros j d. unfold put_n. destruct (Nat.eqb_spec j i) as [->|N]; intros X P; [injection X as <-; discriminate P|].
    apply N. exact (di_one s I j i d _ a X Ei P eq_refl).
  - injection E as <-. destruct I as [K1 K2 K3 K4 K5 K6 K7 K8]. constructor; cbn [ds_dec ds_n ds_pool ds_calls ds_bad]; auto.
    + apply del_nodup, K1.
    + intros b Hb. apply K2. exact (del_in _ _ _ Hb).
    + intros j c b X P. destruct (K4 j c b X P) as [H1 H2]. split; [exact H1|]. intros Y. apply H2. exact (del_in _ _ _ Y).
Qed.
Lemma dinv_run l : forall s s', dplay s l = Some s' -> Forall once l -> dinv s -> dinv s'.
Proof.
  induction l as [|x l IH]; intros s s' E HF I; cbn [dplay] in E; [injection E as <-; exact I|].
  destruct (dfire s x) as [s1|] eqn:E1; [|discriminate]. apply (IH s1 s' E (Forall_inv_tail HF)). exact (dinv_step _ _ _ I (Forall_inv HF) E1).
Qed.

Lemma c88_reads l s i c : runs l s -> Forall once l -> ds_calls s i = Some c -> first_part (dc_got c) (dc_src c).
Proof. intros E HF X. exact (di_part s (dinv_run _ _ _ E HF dinv_start) i c X). Qed.
Lemma c88_one l s i j c d a : runs l s -> Forall once l -> ds_calls s i = Some c -> ds_calls s j = Some d -> dc_pc c = DRead a -> dc_pc d = DRead a -> i = j.
Proof. intros E HF. exact (di_one s (dinv_run _ _ _ E HF dinv_start) i j c d a). Qed.
Lemma c88_ok l s : runs l s -> Forall once l -> ds_bad s = false.
Proof. intros E HF. exact (di_ok s (dinv_run _ _ _ E HF dinv_start)). Qed.
(** a call can always read on to the end of its source *)
Lemma c88_all l s i c a : runs l s -> Forall once l -> ds_calls s i = Some c -> dc_pc c = DRead a ->
  exists l2 s2 c2, dplay s l2 = Some s2 /\ Forall (reads_of i) l2 /\ ds_calls s2 i = Some c2 /\ dc_got c2 = dc_src c /\ dc_src c2 = dc_src c.
Proof.
  intros E HF X P. destruct (di_src s (dinv_run _ _ _ E HF dinv_start) i c a X P) as (r & E1 & E2). destruct c as [src cl pc got]. cbn [dc_pc dc_src dc_got] in *. subst pc.
  exists [D_fill i (length r); D_read i (length (d_held (ds_dec s a)) + length r)]. cbn [dplay dfire]. rewrite X, E1. cbn [dplay dfire ds_calls ds_dec]. rewrite X, put_same.
  cbn [d_held d_src]. rewrite app_length, firstn_all, Nat.leb_refl. eexists _, _. split; [reflexivity|]. split; [repeat constructor|]. cbn [ds_calls]. rewrite put_same.
  split; [reflexivity|]. cbn [dc_got dc_src]. split; [|reflexivity]. rewrite E2. f_equal. rewrite <- app_length. apply firstn_all.
Qed.
(** how much a call has read is how much it asked for *)
Definition got_n (s : dcfg) (i : nat) : nat := match ds_calls s i with Some c => length (dc_got c) | None => 0 end.
Lemma got_step s x s' i : dfire s x = Some s' -> got_n s' i = got_n s i + asked i x.
Proof.
  intros E. unfold got_n. destruct x as [j src cl|j p|j k|j k|j|k|a]; cbn [dfire] in E; cbn [asked].
  - destruct (ds_calls s j) eqn:Ej; [discriminate|]. injection E as <-. cbn [ds_calls]. unfold put_n. destruct (Nat.eqb_spec i j) as [->|]; [rewrite Ej; reflexivity|lia].
  - destruct (ds_calls s j) as [c|] eqn:Ej; [|discriminate]. destruct (dc_pc c); try discriminate. destruct p as [k|].
    + destruct (nth_error (ds_pool s) k) as [a|]; [|discriminate]. injection E as <-. cbn [reset_to ds_calls]. unfold put_n. destruct (Nat.eqb_spec i j) as [->|]; [rewrite Ej; cbn; lia|lia].
    + injection E as <-. cbn [reset_to ds_calls]. unfold put_n. destruct (Nat.eqb_spec i j) as [->|]; [rewrite Ej; cbn; lia|lia].
  - destruct (ds_calls s j) as [[src cl [|a|] got]|]; try discriminate. destruct (d_src (ds_dec s a)); injection E as <-; cbn [ds_calls]; lia.
  - destruct (ds_calls s j) as [[src cl [|a|] got]|] eqn:Ej; try discriminate. destruct (Nat.leb_spec k (length (d_held (ds_dec s a)))); [|discriminate].
    injection E as <-. cbn [ds_calls]. unfold put_n. destruct (Nat.eqb_spec i j) as [->|N].
    + rewrite Ej. cbn [dc_got]. destruct (Nat.eq_dec j j); [|contradiction]. rewrite app_length, firstn_length. lia.
    + destruct (Nat.eq_dec j i); [congruence|lia].
  - destruct (ds_calls s j) as [[src cl [|a|] got]|] eqn:Ej; try discriminate. injection E as <-.
    assert (Q : forall b : bool, ds_calls (if b then d_close (mkDS (ds_dec s) (ds_n s) (ds_pool s) (put_n (ds_calls s) j (Some (mkDC src cl DEnd got))) (ds_bad s)) a
      else mkDS (ds_dec s) (ds_n s) (ds_pool s) (put_n (ds_calls s) j (Some (mkDC src cl DEnd got))) (ds_bad s)) = put_n (ds_calls s) j (Some (mkDC src cl DEnd got))) by (intros []; reflexivity).
    rewrite Q. unfold put_n. destruct (Nat.eqb_spec i j) as [->|]; [rewrite Ej; cbn; lia|lia].
  - injection E as <-. cbn [ds_calls]. lia.
  - injection E as <-. cbn [d_close ds_calls]. lia.
Qed.
Lemma got_run i l : forall s s', dplay s l = Some s' -> got_n s' i = got_n s i + list_sum (map (asked i) l).
Proof.
  induction l as [|x l IH]; intros s s' E; cbn [dplay] in E; [injection E as <-; cbn; lia|].
  destruct (dfire s x) as [s1|] eqn:E1; [|discriminate]. rewrite (IH s1 s' E), (got_step _ _ _ i E1). cbn [map list_sum fold_right]. unfold list_sum. lia.
Qed.
(** exactly the first bytes of its source, as many as it asked for *)
Lemma c88_bytes l s i c : runs l s -> Forall once l -> ds_calls s i = Some c -> dc_got c = firstn (list_sum (map (asked i) l)) (dc_src c).
Proof.
  intros E HF X. destruct (c88_reads l s i c E HF X) as [r Hr]. pose proof (got_run i l _ _ E) as G. unfold got_n in G. rewrite X in G. cbn [ds_calls dstart] in G.
  rewrite Nat.add_0_l in G. rewrite <- G, Hr, firstn_app, Nat.sub_diag, firstn_all, firstn_O, app_nil_r. reflexivity.
Qed.
(** the source of a call is the one it was called with *)
Lemma src_step s x s' i c : dfire s x = Some s' -> ds_calls s i = Some c -> exists c', ds_calls s' i = Some c' /\ dc_src c' = dc_src c.
Proof.
  intros E X. destruct x as [j src cl|j p|j k|j k|j|k|a]; cbn [dfire] in E.
  - destruct (ds_calls s j) eqn:Ej; [discriminate|]. injection E as <-. cbn [ds_calls]. rewrite put_other by congruence. eauto.
  - destruct (ds_calls s j) as [d|] eqn:Ej; [|discriminate]. destruct (dc_pc d); try discriminate.
    assert (Q : forall a n pool, exists c', ds_calls (reset_to s j a n pool d) i = Some c' /\ dc_src c' = dc_src c).
    { intros a n pool. cbn [reset_to ds_calls]. unfold put_n. destruct (Nat.eqb_spec i j) as [->|]; [eexists; split; [reflexivity|]; cbn; congruence|eauto]. }
    destruct p as [k|]; [destruct (nth_error (ds_pool s) k) as [a|]; [|discriminate]|]; injection E as <-; apply Q.
  - destruct (ds_calls s j) as [[src cl [|a|] got]|]; try discriminate. destruct (d_src (ds_dec s a)); injection E as <-; cbn [ds_calls]; eauto.
  - destruct (ds_calls s j) as [[src cl [|a|] got]|] eqn:Ej; try discriminate. destruct (Nat.leb_spec k (length (d_held (ds_dec s a)))); [|discriminate].
    injection E as <-. cbn [ds_calls]. unfold put_n. destruct (Nat.eqb_spec i j) as [->|]; [|eauto]. rewrite Ej in X. injection X as <-. eexists. split; reflexivity.
  - destruct (ds_calls s j) as [[src cl [|a|] got]|] eqn:Ej; try discriminate. injection E as <-.
    assert (Q : exists c', put_n (ds_calls s) j (Some (mkDC src cl DEnd got)) i = Some c' /\ dc_src c' = dc_src c).
    { unfold put_n. destruct (Nat.eqb_spec i j) as [->|]; [|eauto]. rewrite Ej in X. injection X as <-. eexists. split; reflexivity. }
    destruct cl; exact Q.
  - injection E as <-. cbn [ds_calls]. eauto.
  - injection E as <-. cbn [d_close ds_calls]. eauto.
Qed.
Lemma src_run i l : forall s s' c, dplay s l = Some s' -> ds_calls s i = Some c -> exists c', ds_calls s' i = Some c' /\ dc_src c' = dc_src c.
Proof.
  induction l as [|x l IH]; intros s s' c E X; cbn [dplay] in E; [injection E as <-; eauto|].
  destruct (dfire s x) as [s1|] eqn:E1; [|discriminate]. destruct (src_step _ _ _ i c E1 X) as (c1 & X1 & H1). destruct (IH s1 s' c1 E X1) as (c2 & X2 & H2). exists c2. split; congruence.
Qed.
Lemma src_called i src cl l : forall s s', dplay s l = Some s' -> In (D_call i src cl) l -> exists c, ds_calls s' i = Some c /\ dc_src c = src.
Proof.
  induction l as [|x l IH]; intros s s' E H; [destruct H|]. cbn [dplay] in E. destruct (dfire s x) as [s1|] eqn:E1; [|discriminate]. destruct H as [->|H]; [|exact (IH s1 s' E H)].
  cbn [dfire] in E1. destruct (ds_calls s i); [discriminate|]. injection E1 as <-.
  destruct (src_run i l _ _ (mkDC src cl DNew []) E (put_same _ _ _)) as (c & X & Hc). exists c. split; [exact X|exact Hc].
Qed.
Lemma c88_got l s i src cl : runs l s -> Forall once l -> In (D_call i src cl) l ->
  exists c, ds_calls s i = Some c /\ dc_got c = firstn (list_sum (map (asked i) l)) src.
Proof.
  intros E HF H. destruct (src_called i src cl l _ _ E H) as (c & X & Hc). exists c. split; [exact X|]. rewrite (c88_bytes l s i c E HF X), Hc. reflexivity.
Qed.
Lemma c88_can l s i src cl c a : runs l s -> Forall once l -> In (D_call i src cl) l -> ds_calls s i = Some c -> dc_pc c = DRead a ->
  exists l2 s2 c2, runs (l ++ l2) s2 /\ Forall (reads_of i) l2 /\ ds_calls s2 i = Some c2 /\ dc_got c2 = src.
Proof.
  intros E HF H X P. destruct (src_called i src cl l _ _ E H) as (c0 & X0 & Hc). destruct (c88_all l s i c a E HF X P) as (l2 & s2 & c2 & E2 & H2 & X2 & G & _).
  exists l2, s2, c2. split; [|split; [exact H2|split; [exact X2|congruence]]]. unfold runs in *.
  revert E. generalize dstart. clear HF H. induction l as [|x l IH]; intros s0 E; cbn [app dplay] in *; [injection E as ->; exact E2|].
  destruct (dfire s0 x) as [s1|]; [exact (IH s1 E)|discriminate].
Qed.
