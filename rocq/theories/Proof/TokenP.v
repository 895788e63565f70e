From Coq Require Import Strings.String Strings.Ascii.
From Verif.Lib Require Import Prelude ListAux Bytes.
From Verif.Model Require Import Keys Access Tokens.
From Verif.Spec Require Import AccessSpec TokenSpec.
From Verif.Proof Require Import AccessP.
Open Scope Z_scope.

Lemma alive_spec now t : (now / 1000000000 <=? tk_exp t) = true <-> alive now t.
Proof. unfold alive. rewrite Z.leb_le. split; intros; lia. Qed.

Lemma need_enough e s : need e = Some s -> forall d, In d (db_calls e) -> suffices s d.
Proof.
  destruct e; cbn; intros H; inv H; intros d D; repeat (destruct D as [<-|D]; [cbn; auto|]); contradiction.
Qed.
Lemma need_docs e : need e = None -> e = Docs.
Proof. destruct e; cbn; intros; congruence. Qed.

Lemma lets_some g srv now e t c : jwt_on srv = true -> lets_in g srv now e t = Some c -> e <> Docs ->
  exists t' s, t = Some t' /\ need e = Some s /\ c = ctx_of t' /\ alive now t' /\ g (tk_scopes t') (scope_name s) = true.
Proof.
  intros J L D. unfold lets_in in L. destruct (need e) as [s|] eqn:N; [|apply need_docs in N; congruence].
  rewrite J in L. cbn in L. destruct t as [t|]; [|discriminate].
  destruct (_ && _) eqn:A; [|discriminate]. inv L. apply andb_true_iff in A. destruct A as (A & G).
  apply alive_spec in A. exists t, s. auto.
Qed.

Lemma send_held g srv h a : exists x, fst (send g srv h a) = h ++ x.
Proof.
  unfold send. destruct (lets_in _ _ _ _ _); [|exists []; now rewrite app_nil_r].
  destruct (a_to a); cbn; try (exists []; now rewrite app_nil_r).
  destruct (make _ _ _); [eauto|exists []; now rewrite app_nil_r].
Qed.
Lemma client_held g srv l : forall h, exists x, fst (client g srv h l) = h ++ x.
Proof.
  induction l as [|a l IH]; intros h; cbn; [exists []; now rewrite app_nil_r|].
  destruct (send_held g srv h a) as (x & X). destruct (send g srv h a) as [h1 o]. cbn in X. subst h1.
  destruct (IH (h ++ x)) as (y & Y). destruct (client g srv (h ++ x) l) as [h2 rs]. cbn in *.
  exists (x ++ y). now rewrite app_assoc.
Qed.

Lemma c73_calls g srv l : jwt_on srv = true -> forall h a e c, In (a, e, c) (snd (client g srv h l)) -> e <> Docs ->
  In a l /\ e = a_to a /\ exists t s, In t (fst (client g srv h l)) /\ c = ctx_of t /\ alive (a_time a) t /\
    g (tk_scopes t) (written_as s) = true /\ forall d, In d (db_calls e) -> suffices s d.
Proof.
  intros J. induction l as [|a0 l IH]; intros h a e c I D; cbn in *; [contradiction|].
  destruct (send_held g srv h a0) as (x & X). destruct (send g srv h a0) as [h1 o] eqn:S. cbn in X. subst h1.
  destruct (client_held g srv l (h ++ x)) as (y & Y).
  specialize (IH (h ++ x) a e c). destruct (client g srv (h ++ x) l) as [h2 rs]. cbn in *.
  assert (K : In (a, e, c) rs \/ o = Some (e, c) /\ a = a0).
  { destruct o as [[e0 c0]|]; cbn in I; [|auto]. destruct I as [I|I]; [inv I|]; auto. }
  destruct K as [K|(-> & ->)].
  - destruct (IH K D) as (A & B & C). auto.
  - unfold send in S. destruct (lets_in _ _ _ _ _) as [c0|] eqn:L; [|discriminate].
    inv S. split; [auto|]. split; [reflexivity|].
    destruct (lets_some _ _ _ _ _ _ J L D) as (t & s & T & N & -> & A & G).
    exists t, s. split; [|split; [reflexivity|split; [exact A|split; [destruct s; exact G|intros d Hd; exact (need_enough _ _ N d Hd)]]]].
    destruct (a_with a0); [|discriminate]. apply nth_error_In in T. rewrite <- app_assoc. apply in_or_app. now left.
Qed.

Lemma send_same g srv h a : jwt_on srv = true ->
  (forall t, In t h -> manages g t -> ~ alive (a_time a) t) -> fst (send g srv h a) = h.
Proof.
  intros J H. unfold send. destruct (lets_in _ _ _ _ _) as [c|] eqn:L; [|reflexivity].
  destruct (a_to a) eqn:E; try reflexivity.
  destruct (lets_some _ _ _ _ _ _ J L ltac:(discriminate)) as (t & s & T & N & _ & A & G).
  inv N. destruct (a_with a); [|discriminate]. apply nth_error_In in T. exfalso. exact (H t T G A).
Qed.
Lemma c73_closed g srv l : jwt_on srv = true -> forall h,
  (forall a t, In a l -> In t h -> manages g t -> ~ alive (a_time a) t) -> fst (client g srv h l) = h.
Proof.
  intros J. induction l as [|a l IH]; intros h H; cbn; [reflexivity|].
  pose proof (send_same g srv h a J (fun t => H a t (or_introl eq_refl))) as S.
  destruct (send g srv h a) as [h1 o]. cbn in S. subst h1.
  specialize (IH h (fun a0 t A => H a0 t (or_intror A))). destruct (client g srv h l). cbn in *. exact IH.
Qed.
Lemma c73_start c p n k : start c p n k = None <-> (p <> [] /\ n = O) \/ (c = true /\ k = false).
Proof.
  unfold start. destruct (beq p []) eqn:B; [apply beq_spec in B|]; cbn.
  - destruct c, k; cbn; intuition (try discriminate; try congruence).
  - assert (p <> []) by (intros ->; discriminate).
    destruct n; cbn; [intuition|]. destruct c, k; cbn; intuition (try discriminate; try congruence).
Qed.
Lemma c73_started c p n k srv : start c p n k = Some srv -> (jwt_on srv = true <-> p <> []) /\ jwt_make srv = c /\ private_key srv = c.
Proof.
  unfold start. destruct (beq p []) eqn:B; [apply beq_spec in B|]; cbn.
  - destruct c, k; cbn; intros H; inv H; cbn; intuition congruence.
  - assert (p <> []) by (intros ->; discriminate).
    destruct n; cbn; [discriminate|]. destruct c, k; cbn; intros X; inv X; cbn; intuition congruence.
Qed.
Lemma c73_never g p n k srv : start false p n k = Some srv -> forall l h, fst (client g srv h l) = h.
Proof.
  intros S. apply c73_started in S. destruct S as (_ & M & _).
  induction l as [|a l IH]; intros h; cbn; [reflexivity|].
  assert (fst (send g srv h a) = h) as F.
  { unfold send. destruct (lets_in _ _ _ _ _); [|reflexivity]. destruct (a_to a); try reflexivity.
    unfold make. rewrite M. destruct (expire_of _); [|reflexivity]. now rewrite orb_true_r. }
  destruct (send g srv h a). cbn in F. subst. specialize (IH h). destruct (client g srv h l). exact IH.
Qed.
Lemma c73_open g srv : jwt_on srv = false -> forall l h,
  Forall2 (fun a x => x = (a, a_to a, NoToken)) l (snd (client g srv h l)).
Proof.
  intros J. induction l as [|a l IH]; intros h; cbn; [constructor|].
  assert (exists h1, send g srv h a = (h1, Some (a_to a, NoToken))) as (h1 & S).
  { unfold send, lets_in. rewrite J. destruct (need (a_to a)); cbn; eauto. }
  rewrite S. specialize (IH h1). destruct (client g srv h1 l). cbn in *. constructor; auto.
Qed.
Lemma c73_manage g srv h i t now scopes lists elems m : jwt_make srv = true -> private_key srv = true ->
  nth_error h i = Some t -> manages g t -> alive now t -> 1 <= m ->
  fst (client g srv h [mkAct now JwtMake (Some i) (mkParams (Some scopes) lists elems (Some (Some m)))]) =
  h ++ [mkTok scopes lists elems (expiry now m)].
Proof.
  intros M K N G A L. cbn [client]. unfold send. cbn [a_time a_to a_with a_params]. rewrite N.
  assert (exists c, lets_in g srv now JwtMake (Some t) = Some c) as (c & ->).
  { unfold lets_in. cbn [need]. destruct (negb (jwt_on srv)); [eauto|].
    apply alive_spec in A. rewrite A. unfold manages in G. cbn [scope_name]. rewrite G. cbn. eauto. }
  unfold make, expire_of. cbn [p_expire p_scope p_lists p_elems scope_of]. destruct (m <? 1) eqn:E; [lia|].
  rewrite K, M. reflexivity.
Qed.
Lemma c73_expiry now m : 1 <= m <= 153722867 -> expiry now m = now / 1000000000 + 60 * m.
Proof.
  intros. unfold expiry, wrap64.
  rewrite Z.mod_small by lia.
  replace (now + (60000000000 * m + 2 ^ 63 - 2 ^ 63)) with (now + (60 * m) * 1000000000) by lia.
  apply Z.div_add. lia.
Qed.
Lemma c73_dead now m : 153722868 <= m <= 307445734 -> expiry now m < now / 1000000000.
Proof.
  intros. unfold expiry, wrap64.
  replace ((60000000000 * m + 2 ^ 63) mod 2 ^ 64) with (60000000000 * m + 2 ^ 63 - 2 ^ 64).
  2:{ symmetry. rewrite <- (Z_mod_plus_full _ (-1)). rewrite Z.mod_small; lia. }
  assert (60000000000 * m + 2 ^ 63 - 2 ^ 64 - 2 ^ 63 <= -33000000000) by lia.
  generalize dependent (60000000000 * m + 2 ^ 63 - 2 ^ 64 - 2 ^ 63). intros z Hz.
  assert ((now + z) / 1000000000 <= (now + -33000000000) / 1000000000) by (apply Z.div_le_mono; lia).
  replace (now + -33000000000) with (now + (-33) * 1000000000) in H0 by lia. rewrite Z.div_add in H0 by lia. lia.
Qed.

Lemma white_first c : white c -> forall a r, utf8 c = a :: r -> ~ (33 <= N_of_ascii a <= 126)%N.
Proof.
  intros W a r E. pose proof (proj2 (whites_spec c) W) as I. revert E.
  assert (forallb (fun c => match utf8 c with [] => true | a :: _ => negb ((33 <=? N_of_ascii a) && (N_of_ascii a <=? 126))%N end) whites = true) as F by (vm_compute; reflexivity).
  rewrite forallb_forall in F. specialize (F c I). intros E. rewrite E in F. lia.
Qed.
Lemma white_last c : white c -> forall a r, utf8 c = r ++ [a] -> ~ (33 <= N_of_ascii a <= 126)%N.
Proof.
  intros W a r E. pose proof (proj2 (whites_spec c) W) as I. revert E.
  assert (forallb (fun c => match rev (utf8 c) with [] => true | a :: _ => negb ((33 <=? N_of_ascii a) && (N_of_ascii a <=? 126))%N end) whites = true) as F by (vm_compute; reflexivity).
  rewrite forallb_forall in F. specialize (F c I). intros E. rewrite E, rev_app_distr in F. cbn in F. lia.
Qed.
Lemma utf8_ne c : white c -> utf8 c <> [].
Proof.
  intros W. pose proof (proj2 (whites_spec c) W) as I.
  assert (forallb (fun c => negb (beq (utf8 c) [])) whites = true) as F by (vm_compute; reflexivity).
  rewrite forallb_forall in F. specialize (F c I). intros E. now rewrite E in F.
Qed.
Lemma plain_trimmed p : plain p -> trim p = p.
Proof.
  intros P. apply trim_spec. exists [], []. rewrite app_nil_r. split; [reflexivity|]. split; [constructor|]. split; [constructor|].
  split; intros c x W E.
  - destruct (utf8 c) as [|a r] eqn:U; [exact (utf8_ne c W U)|]. apply (white_first c W a r U). apply (P a). rewrite E. now left.
  - destruct (exists_last (utf8_ne c W)) as (r & a & U). apply (white_last c W a r U). apply (P a). rewrite E, U. apply in_or_app. right. apply in_or_app. right. now left.
Qed.
Lemma plain_comma p : plain p -> ~ In comma p.
Proof. intros P I. destruct (P _ I) as (_ & H). apply H. reflexivity. Qed.

Lemma split_app p r : ~ In comma p -> split_comma (p ++ comma :: r) = p :: split_comma r.
Proof.
  induction p as [|c p IH]; intros N; [reflexivity|]. cbn [app split_comma].
  destruct (Ascii.eqb c comma) eqn:E; [apply Ascii.eqb_eq in E; subst; exfalso; apply N; now left|].
  rewrite IH by (intros I; apply N; now right). reflexivity.
Qed.
Lemma split_one p : ~ In comma p -> split_comma p = [p].
Proof.
  induction p as [|c p IH]; intros N; [reflexivity|]. cbn [split_comma].
  destruct (Ascii.eqb c comma) eqn:E; [apply Ascii.eqb_eq in E; subst; exfalso; apply N; now left|].
  rewrite IH by (intros I; apply N; now right). reflexivity.
Qed.
Lemma split_commas ids : ids <> [] -> Forall plain ids -> split_comma (commas ids) = ids.
Proof.
  induction ids as [|x ids IH]; intros N F; [congruence|]. inv F. destruct ids as [|y ids].
  - cbn. apply split_one. now apply plain_comma.
  - change (commas (x :: y :: ids)) with (x ++ comma :: commas (y :: ids)).
    rewrite split_app by (now apply plain_comma). f_equal. apply IH; [discriminate|assumption].
Qed.
Lemma c73_lists ids e s x id : ids <> [] -> Forall plain ids ->
  (has_list (ctx_of (mkTok s (Some (commas ids)) e x)) [id] = true <-> In id ids).
Proof.
  intros N F. cbn. rewrite split_commas by assumption. rewrite andb_true_r.
  rewrite existsb_exists. split.
  - intros (p & I & B). apply beq_spec in B. rewrite Forall_forall in F. rewrite plain_trimmed in B by auto. congruence.
  - intros I. exists id. split; [exact I|]. rewrite Forall_forall in F. rewrite plain_trimmed by auto. now apply beq_spec.
Qed.
Lemma trim_part s t : trim s = t -> exists a b, s = a ++ t ++ b.
Proof. intros H. apply trim_spec in H. destruct H as (a & b & H & _). eauto. Qed.
Lemma c73_unnamed t ol id : tk_lists t = Some ol -> In ","%char id -> has_list (ctx_of t) [id] = false.
Proof.
  intros L I. destruct (has_list _ _) eqn:H; [|reflexivity]. exfalso. unfold ctx_of in H. rewrite L in H. cbn in H.
  rewrite andb_true_r in H. apply existsb_exists in H. destruct H as (p & P & B). apply beq_spec in B.
  apply part_spec in P. destruct P as (P & _). apply P. destruct (trim_part _ _ B) as (a & b & ->).
  apply in_or_app. right. apply in_or_app. now left.
Qed.
