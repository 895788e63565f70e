(** Splitting, trimming and parsing of restriction strings. *)
From Coq Require Import Strings.String Strings.Ascii.
From Verif.Lib Require Import Prelude ListAux.
From Verif.Model Require Import Access.
From Verif.Spec Require Import AccessSpec.
Open Scope N_scope.

Lemma beq_spec a b : beq a b = true <-> a = b.
Proof. unfold beq. destruct (list_eq_dec ascii_dec a b); split; congruence. Qed.

(** ** comma separated parts *)
Lemma split_cons s : exists p ps, split_comma s = p :: ps.
Proof. induction s as [|c s (p & ps & E)]; cbn; [eauto|]. destruct (Ascii.eqb c comma); [eauto|]. rewrite E. eauto. Qed.
(** the first part, and the others *)
Lemma split_first s p ps : split_comma s = p :: ps ->
  ~ In comma p /\ ((s = p /\ ps = []) \/ exists r, s = p ++ comma :: r /\ ps = split_comma r).
Proof.
  revert p ps. induction s as [|c s IH]; intros p ps; cbn [split_comma].
  - intros E. injection E as <- <-. split; [intros []|auto].
  - destruct (Ascii.eqb_spec c comma) as [->|Hc].
    + intros E. injection E as <- <-. split; [intros []|]. right. exists s. auto.
    + destruct (split_cons s) as (q & qs & Eq). rewrite Eq. intros E. injection E as <- <-.
      destruct (IH q qs Eq) as (H1 & H2). split; [intros [C|C]; auto|]. destruct H2 as [(-> & ->)|(r & -> & ->)]; [auto|].
      right. exists r. auto.
Qed.
Lemma no_comma_split (a b p r : bytes) : ~ In comma p -> ~ In comma a -> a ++ comma :: b = p ++ comma :: r -> a = p /\ b = r.
Proof.
  revert p. induction a as [|x a IH]; intros [|y p] Hp Ha E; cbn in E.
  - injection E as <-. auto.
  - injection E as <- _. destruct Hp. left. reflexivity.
  - injection E as -> _. destruct Ha. left. reflexivity.
  - injection E as <- E. destruct (IH p) as (-> & ->); auto; intros C; [apply Hp|apply Ha]; right; exact C.
Qed.
Lemma part_in : forall n s p, (length s <= n)%nat -> part s p -> In p (split_comma s).
Proof.
  induction n as [|n IH]; intros s p Hn (Hp & a & b & E & Ha & Hb); destruct (split_cons s) as (q & qs & Eq); rewrite Eq; destruct (split_first s q qs Eq) as (Hq & Cs).
  - destruct s as [|]; [|cbn in Hn; lia]. destruct a; [|discriminate]. destruct p; [|discriminate]. left. destruct Cs as [(<- & _)|(r & C & _)]; [reflexivity|]. destruct q; discriminate.
  - destruct Cs as [(<- & ->)|(r & -> & ->)].
    + left. assert (a = []) as ->. { destruct Ha as [->|(a' & ->)]; [reflexivity|]. exfalso. apply Hq. rewrite E, <- app_assoc. apply in_app_iff. right. left. reflexivity. }
      assert (b = []) as ->. { destruct Hb as [->|(b' & ->)]; [reflexivity|]. exfalso. apply Hq. rewrite E. cbn. apply in_app_iff. right. left. reflexivity. }
      rewrite E. cbn. rewrite app_nil_r. reflexivity.
    + destruct Ha as [->|(a' & ->)].
      * left. cbn in E. destruct Hb as [->|(b' & ->)].
        -- exfalso. apply Hp. rewrite app_nil_r in E. rewrite <- E. apply in_app_iff. right. left. reflexivity.
        -- symmetry in E. apply no_comma_split in E as (-> & _); auto.
      * right. apply IH; [rewrite app_length in Hn; cbn in Hn; lia|]. split; [exact Hp|].
        (* q is the first part of a' ++ "," *)
        destruct (split_cons a') as (q' & qs' & Eq'). destruct (split_first a' q' qs' Eq') as (Hq' & [(<- & _)|(r' & -> & _)]).
        -- rewrite <- app_assoc in E. cbn in E. apply no_comma_split in E as (-> & ->); auto. exists [], b. auto.
        -- rewrite <- !app_assoc in E. cbn in E. apply no_comma_split in E as (-> & ->); auto.
           exists (r' ++ [comma]), b. split; [rewrite <- app_assoc; reflexivity|]. split; [right; eauto|exact Hb].
Qed.
Lemma in_part : forall n s p, (length s <= n)%nat -> In p (split_comma s) -> part s p.
Proof.
  induction n as [|n IH]; intros s p Hn Hi; destruct (split_cons s) as (q & qs & Eq); rewrite Eq in Hi; destruct (split_first s q qs Eq) as (Hq & Cs).
  - destruct Cs as [(<- & ->)|(r & -> & ->)]; [|rewrite app_length in Hn; cbn in Hn; lia].
    destruct Hi as [<-|[]]. split; [exact Hq|]. exists [], []. cbn. rewrite app_nil_r. auto.
  - destruct Hi as [<-|Hi].
    + split; [exact Hq|]. destruct Cs as [(<- & ->)|(r & -> & ->)]; [exists [], []; cbn; rewrite app_nil_r; auto|].
      exists [], (comma :: r). split; [reflexivity|]. split; [auto|right; eauto].
    + destruct Cs as [(<- & ->)|(r & -> & ->)]; [destruct Hi|].
      assert (Hr : part r p) by (apply IH; [rewrite app_length in Hn; cbn in Hn; lia|exact Hi]).
      destruct Hr as (Hp & a & b & -> & Ha & Hb). split; [exact Hp|]. exists (q ++ comma :: a), b. rewrite <- app_assoc. split; [reflexivity|]. split; [|exact Hb].
      right. destruct Ha as [->|(a' & ->)]; [exists q; reflexivity|]. exists (q ++ comma :: a'). rewrite <- app_assoc. reflexivity.
Qed.
Lemma part_spec s p : In p (split_comma s) <-> part s p.
Proof. split; [apply (in_part (length s)); lia|apply (part_in (length s)); lia]. Qed.

(** ** blanks *)
Definition whites : list N :=
  [9; 10; 11; 12; 13; 32; 0x85; 0xA0; 0x1680; 0x2000; 0x2001; 0x2002; 0x2003; 0x2004; 0x2005; 0x2006; 0x2007; 0x2008; 0x2009; 0x200A;
   0x2028; 0x2029; 0x202F; 0x205F; 0x3000].
Lemma blanks_whites : blanks = map utf8 whites.
Proof. vm_compute. reflexivity. Qed.
Lemma whites_spec c : In c whites <-> white c.
Proof. unfold whites, white. cbn [In]. lia. Qed.
Lemma blanks_spec x : In x blanks <-> exists c, white c /\ x = utf8 c.
Proof.
  rewrite blanks_whites, in_map_iff. split.
  - intros (c & <- & H). exists c. split; [apply whites_spec, H|reflexivity].
  - intros (c & H & ->). exists c. split; [reflexivity|apply whites_spec, H].
Qed.

(** ** trimming *)
Inductive star (ps : list bytes) : bytes -> Prop :=
| star_nil : star ps []
| star_cons p s : In p ps -> star ps s -> star ps (p ++ s).
Lemma star_app ps a b : star ps a -> star ps b -> star ps (a ++ b).
Proof. intros H Hb. induction H; [exact Hb|]. rewrite <- app_assoc. constructor; assumption. Qed.
Lemma star_blank s : star blanks s <-> blank s.
Proof.
  split; induction 1.
  - constructor.
  - apply blanks_spec in H as (c & Hc & ->). constructor; assumption.
  - constructor.
  - constructor; [apply blanks_spec; eauto|assumption].
Qed.
Lemma star_rev ps s : star ps s -> star (map (@rev ascii) ps) (rev s).
Proof.
  induction 1; [constructor|]. rewrite rev_app_distr. apply star_app; [assumption|].
  rewrite <- (app_nil_r (rev p)). constructor; [apply in_map; assumption|constructor].
Qed.
Lemma drop_spec p s r : drop_prefix p s = Some r <-> s = p ++ r.
Proof.
  revert s. induction p as [|c p IH]; intros s; cbn; [split; congruence|]. destruct s as [|d s]; [split; discriminate|].
  destruct (Ascii.eqb_spec c d) as [->|H]; [rewrite IH; split; congruence|]. split; [discriminate|]. congruence.
Qed.
Lemma first_drop_some ps s r : first_drop ps s = Some r -> exists p, In p ps /\ s = p ++ r.
Proof.
  induction ps as [|p ps IH]; cbn; [discriminate|]. destruct (drop_prefix p s) eqn:E.
  - intros H. injection H as ->. apply drop_spec in E. eauto.
  - intros H. destruct (IH H) as (q & Hq & E'). eauto.
Qed.
Lemma first_drop_none ps s : first_drop ps s = None -> forall p r, In p ps -> s <> p ++ r.
Proof.
  induction ps as [|p ps IH]; cbn; [intros _ q r []|]. destruct (drop_prefix p s) eqn:E; [discriminate|].
  intros H q r [<-|Hq]; [|apply IH; assumption]. intros C. apply drop_spec in C. congruence.
Qed.
Definition no_prefix (ps : list bytes) (s : bytes) : Prop := forall p r, In p ps -> s <> p ++ r.
Definition nonempty (ps : list bytes) : Prop := forall p, In p ps -> p <> [].
Lemma trim_left_spec ps : nonempty ps -> forall f s, (length s <= f)%nat ->
  exists a, s = a ++ trim_left ps f s /\ star ps a /\ no_prefix ps (trim_left ps f s).
Proof.
  intros Ne. induction f as [|f IH]; intros s Hf; cbn [trim_left].
  - exists []. split; [reflexivity|]. split; [constructor|]. intros p r Hp E. destruct s; [|cbn in Hf; lia]. symmetry in E. apply app_eq_nil in E as (C & _). exact (Ne p Hp C).
  - destruct (first_drop ps s) as [r|] eqn:E.
    + apply first_drop_some in E as (p & Hp & ->). pose proof (Ne p Hp). destruct (IH r) as (a & Ea & Sa & Na).
      { rewrite app_length in Hf. destruct p; [congruence|cbn in Hf; lia]. }
      exists (p ++ a). rewrite <- app_assoc, <- Ea. split; [reflexivity|]. split; [constructor; assumption|exact Na].
    + exists []. split; [reflexivity|]. split; [constructor|]. exact (first_drop_none _ _ E).
Qed.
(** no member of [ps] starts with another *)
Definition prefix_code (ps : list bytes) : Prop := forall p q r r', In p ps -> In q ps -> p ++ r = q ++ r' -> p = q.
Lemma trim_left_unique ps a u : nonempty ps -> prefix_code ps -> star ps a -> no_prefix ps u ->
  forall f, (length (a ++ u) <= f)%nat -> trim_left ps f (a ++ u) = u.
Proof.
  intros Ne Pc Sa Nu. induction Sa as [|p s Hp Sa IH]; intros f Hf.
  - cbn [app]. destruct f as [|f]; [reflexivity|]. cbn [trim_left]. destruct (first_drop ps u) as [r|] eqn:E; [|reflexivity].
    apply first_drop_some in E as (q & Hq & E). destruct (Nu q r Hq E).
  - rewrite <- app_assoc in *. pose proof (Ne p Hp). destruct f as [|f]; [rewrite app_length in Hf; destruct p; [congruence|cbn in Hf; lia]|].
    cbn [trim_left]. destruct (first_drop ps (p ++ s ++ u)) as [r|] eqn:E.
    + apply first_drop_some in E as (q & Hq & E). assert (p = q) by (eapply Pc; eauto). subst q. apply app_inv_head in E. subst r.
      apply IH. rewrite app_length in Hf. destruct p; [congruence|cbn in Hf; lia].
    + exfalso. exact (first_drop_none _ _ E p (s ++ u) Hp eq_refl).
Qed.

(** facts about the blanks, by computation *)
Fixpoint is_prefix (p q : bytes) : bool :=
  match p, q with [], _ => true | _, [] => false | c :: p, d :: q => Ascii.eqb c d && is_prefix p q end.
Lemma common_prefix p : forall q r r', p ++ r = q ++ r' -> is_prefix p q = true \/ is_prefix q p = true.
Proof.
  induction p as [|c p IH]; intros [|d q] r r' E; cbn; auto. injection E as -> E. rewrite Ascii.eqb_refl. cbn. eapply IH, E.
Qed.
Definition code_ok (ps : list bytes) : bool := forallb (fun p => forallb (fun q => implb (is_prefix p q || is_prefix q p) (beq p q)) ps) ps.
Lemma code_sound ps : code_ok ps = true -> prefix_code ps.
Proof.
  unfold code_ok. rewrite forallb_forall. intros H p q r r' Hp Hq E. specialize (H p Hp). rewrite forallb_forall in H. specialize (H q Hq).
  apply beq_spec. destruct (common_prefix _ _ _ _ E) as [C|C]; rewrite C in H; [|rewrite orb_true_r in H]; cbn in H; exact H.
Qed.
Lemma blanks_code : prefix_code blanks.
Proof. apply code_sound. vm_compute. reflexivity. Qed.
Lemma blanks_rev_code : prefix_code (map (@rev ascii) blanks).
Proof. apply code_sound. vm_compute. reflexivity. Qed.
Lemma ne_sound ps : forallb (fun p => negb (beq p [])) ps = true -> nonempty ps.
Proof. rewrite forallb_forall. intros H p Hp C. specialize (H p Hp). subst p. discriminate. Qed.
Lemma blanks_ne : nonempty blanks.
Proof. apply ne_sound. vm_compute. reflexivity. Qed.
Lemma blanks_rev_ne : nonempty (map (@rev ascii) blanks).
Proof. apply ne_sound. vm_compute. reflexivity. Qed.
Definition cont (c : ascii) : bool := (128 <=? N_of_ascii c) && (N_of_ascii c <? 192).
Lemma blanks_cont p : In p blanks -> exists c r, p = c :: r /\ cont c = false /\ Forall (fun d => cont d = true) r.
Proof.
  assert (H : forallb (fun p => match p with [] => false | c :: r => negb (cont c) && forallb cont r end) blanks = true) by (vm_compute; reflexivity).
  rewrite forallb_forall in H. intros Hp. specialize (H p Hp). destruct p as [|c r]; [discriminate|]. apply andb_true_iff in H as (H1 & H2).
  exists c, r. split; [reflexivity|]. split; [apply negb_true_iff, H1|]. apply Forall_forall. rewrite forallb_forall in H2. exact H2.
Qed.
Lemma no_straddle t b : no_prefix blanks t -> t <> [] -> star blanks b -> no_prefix blanks (t ++ b).
Proof.
  intros Nt Ht Sb x y Hx E.
  destruct (Nat.le_gt_cases (length x) (length t)) as [L|L].
  - assert (Et : t = x ++ skipn (length x) t).
    { rewrite <- (firstn_skipn (length x) t) at 1. f_equal. apply (f_equal (firstn (length x))) in E.
      rewrite firstn_app in E. replace (length x - length t)%nat with 0%nat in E by lia. cbn in E. rewrite app_nil_r in E.
      rewrite E, firstn_app, Nat.sub_diag, firstn_all. cbn. apply app_nil_r. }
    exact (Nt _ _ Hx Et).
  - assert (Ex : x = t ++ skipn (length t) x).
    { rewrite <- (firstn_skipn (length t) x) at 1. f_equal. apply (f_equal (firstn (length t))) in E.
      rewrite firstn_app, Nat.sub_diag, firstn_all in E. cbn in E. rewrite app_nil_r in E. rewrite firstn_app in E.
      replace (length t - length x)%nat with 0%nat in E by lia. cbn in E. rewrite app_nil_r in E. symmetry. exact E. }
    set (z := skipn (length t) x) in *. assert (Hz : z <> []) by (intros C; apply (f_equal (@length _)) in Ex; rewrite C, app_nil_r in Ex; lia).
    rewrite Ex, <- app_assoc in E. apply app_inv_head in E.
    destruct z as [|c z]; [congruence|]. destruct (blanks_cont x Hx) as (h & r & Exx & _ & Fr).
    assert (Hc : cont c = true).
    { destruct t as [|d t]; [congruence|]. rewrite Ex in Exx. cbn in Exx. injection Exx as _ <-. rewrite Forall_forall in Fr. apply Fr. apply in_app_iff. right. left. reflexivity. }
    destruct Sb as [|p s Hp Sb]; [discriminate|]. destruct (blanks_cont p Hp) as (h' & r' & -> & Hh & _). cbn in E. injection E as -> _. congruence.
Qed.
Lemma trim_spec s t : trim s = t <-> trimmed s t.
Proof.
  assert (NP : forall t, no_prefix blanks t <-> forall c x, white c -> t <> utf8 c ++ x).
  { intros u. unfold no_prefix. split; intros H; [intros c x Hc; apply H, blanks_spec; eauto|]. intros p r Hp. apply blanks_spec in Hp as (c & Hc & ->). auto. }
  assert (NS : forall t, no_prefix (map (@rev ascii) blanks) (rev t) <-> forall c x, white c -> t <> x ++ utf8 c).
  { intros u. unfold no_prefix. split; intros H.
    - intros c x Hc E. apply (H (rev (utf8 c)) (rev x)); [apply in_map, blanks_spec; eauto|]. rewrite E, rev_app_distr. reflexivity.
    - intros p r Hp E. apply in_map_iff in Hp as (q & <- & Hq). apply blanks_spec in Hq as (c & Hc & ->). apply (H c (rev r) Hc).
      rewrite <- (rev_involutive u), E, rev_app_distr, rev_involutive. reflexivity. }
  unfold trim. split.
  - intros <-. destruct (trim_left_spec blanks blanks_ne (length s) s (le_n _)) as (a & Ea & Sa & Na).
    set (t1 := trim_left blanks (length s) s) in *.
    destruct (trim_left_spec _ blanks_rev_ne (length t1) (rev t1)) as (b & Eb & Sb & Nb); [rewrite rev_length; lia|].
    set (t2 := trim_left (map (@rev ascii) blanks) (length t1) (rev t1)) in *.
    assert (Et : t1 = rev t2 ++ rev b) by (rewrite <- (rev_involutive t1), Eb, rev_app_distr; reflexivity).
    exists a, (rev b). split; [rewrite <- Et; exact Ea|]. split; [apply star_blank, Sa|]. split.
    + apply star_blank. apply star_rev in Sb. rewrite map_map in Sb. rewrite (map_ext _ (fun x => x)) in Sb by (intros; apply rev_involutive). rewrite map_id in Sb. exact Sb.
    + split.
      * intros c x Hc E. apply (proj1 (NP t1) Na c (x ++ rev b) Hc). rewrite Et, E, <- app_assoc. reflexivity.
      * apply NS. rewrite rev_involutive. exact Nb.
  - intros (a & b & -> & Ba & Bb & H1 & H2). apply star_blank in Ba, Bb. apply NP in H1. apply NS in H2.
    destruct t as [|c t].
    + cbn [app] in *. assert (E : trim_left blanks (length (a ++ b)) (a ++ b) = []).
      { rewrite <- (app_nil_r (a ++ b)) at 2. apply trim_left_unique; [apply blanks_ne|apply blanks_code|apply star_app; assumption| |rewrite app_nil_r; lia].
        intros p r Hp C. symmetry in C. apply app_eq_nil in C as (C & _). exact (blanks_ne p Hp C). }
      rewrite E. reflexivity.
    + assert (E : trim_left blanks (length (a ++ (c :: t) ++ b)) (a ++ (c :: t) ++ b) = (c :: t) ++ b).
      { apply trim_left_unique; [apply blanks_ne|apply blanks_code|exact Ba| |lia]. apply no_straddle; [exact H1|discriminate|exact Bb]. }
      rewrite E. rewrite rev_app_distr. rewrite trim_left_unique; [apply rev_involutive|apply blanks_rev_ne|apply blanks_rev_code|apply star_rev, Bb|exact H2|].
      rewrite app_length, !rev_length, app_length. lia.
Qed.

(** ** numbers *)
Definition parse_step (n : N) (c : ascii) : option N := parse_loop n [c].
Lemma parse_snoc s : forall n c, parse_loop n (s ++ [c]) = match parse_loop n s with Some m => parse_step m c | None => None end.
Proof.
  induction s as [|d s IH]; intros n c; [reflexivity|]. cbn [app parse_loop]. destruct (_ && _); [|reflexivity].
  destruct (_ <=? _); [reflexivity|]. cbv zeta. destruct (_ <? _); [reflexivity|]. apply IH.
Qed.
Lemma digit_of d : d <= 9 -> N_of_ascii (ascii_of_N (48 + d)) = 48 + d.
Proof. intros H. apply N_ascii_embedding. lia. Qed.
Notation B64 := 18446744073709551616.
Lemma step_digit m d : m < B64 -> d <= 9 -> parse_step m (ascii_of_N (48 + d)) = if 10 * m + d <? B64 then Some (10 * m + d) else None.
Proof.
  intros Hm Hd. unfold parse_step. cbn [parse_loop]. rewrite digit_of by exact Hd. change (2 ^ 64) with B64.
  destruct (N.leb_spec 48 (48 + d)); [|lia]. destruct (N.leb_spec (48 + d) 57); [|lia]. cbn [andb].
  destruct (N.leb_spec 1844674407370955162 m) as [C|C].
  - destruct (N.ltb_spec (10 * m + d) B64); [lia|reflexivity].
  - replace (m * 10 + (48 + d - 48)) with (10 * m + d) by lia. rewrite (N.mod_small (m * 10)) by lia.
    destruct (N.ltb_spec (10 * m + d) B64) as [L|L].
    + rewrite N.mod_small by exact L. destruct (N.ltb_spec (10 * m + d) (m * 10)); [lia|reflexivity].
    + assert (E : (10 * m + d) mod B64 = 10 * m + d - B64) by (symmetry; apply N.mod_unique with 1; lia). rewrite E.
      destruct (N.ltb_spec (10 * m + d - B64) (m * 10)); [reflexivity|lia].
Qed.
Lemma step_inv m c v : m < B64 -> parse_step m c = Some v -> exists d, d <= 9 /\ c = ascii_of_N (48 + d) /\ v = 10 * m + d /\ v < B64.
Proof.
  intros Hm E. assert (exists d, d <= 9 /\ c = ascii_of_N (48 + d)) as (d & Hd & ->).
  { unfold parse_step in E. cbn [parse_loop] in E. destruct (N.leb_spec 48 (N_of_ascii c)) as [L|]; [|discriminate].
    destruct (N.leb_spec (N_of_ascii c) 57) as [L2|]; [|discriminate]. exists (N_of_ascii c - 48). split; [lia|].
    replace (48 + (N_of_ascii c - 48)) with (N_of_ascii c) by lia. symmetry. apply ascii_N_embedding. }
  exists d. rewrite step_digit in E by assumption. destruct (N.ltb_spec (10 * m + d) B64); [|discriminate]. injection E as <-. auto.
Qed.
Lemma decimal_ne s v : decimal s v -> s <> [].
Proof. destruct 1; [discriminate|]. intros C. apply app_eq_nil in C as (_ & C). discriminate. Qed.
Lemma decimal_loop s v : decimal s v -> parse_loop 0 s = if v <? B64 then Some v else None.
Proof.
  induction 1 as [d Hd|s v d D IH Hd].
  - change [ascii_of_N (48 + d)] with ([] ++ [ascii_of_N (48 + d)]). rewrite parse_snoc. cbn [parse_loop]. rewrite step_digit by (assumption || lia). reflexivity.
  - rewrite parse_snoc, IH. destruct (N.ltb_spec v B64) as [L|L].
    + apply step_digit; assumption.
    + destruct (N.ltb_spec (10 * v + d) B64); [lia|reflexivity].
Qed.
Lemma loop_decimal s : s <> [] -> forall v, parse_loop 0 s = Some v -> decimal s v /\ v < B64.
Proof.
  induction s as [|c s IH] using rev_ind; [congruence|]. intros _ v. rewrite parse_snoc.
  destruct s as [|x s].
  - cbn [parse_loop]. intros E. apply step_inv in E as (d & Hd & -> & -> & L); [|lia]. replace (10 * 0 + d) with d in * by lia. split; [|exact L]. apply (dec_one d Hd).
  - destruct (parse_loop 0 (x :: s)) as [m|] eqn:E; [|discriminate]. destruct (IH ltac:(discriminate) m eq_refl) as (D & Lm).
    intros E'. apply step_inv in E' as (d & Hd & -> & -> & L); [|exact Lm]. split; [constructor; assumption|exact L].
Qed.
Lemma parse_spec s v : parse_uint s = Some v <-> decimal s v /\ v < B64.
Proof.
  destruct s as [|c s].
  - cbn. split; [discriminate|]. intros (D & _). destruct (decimal_ne _ _ D eq_refl).
  - cbn [parse_uint]. split; [apply loop_decimal; discriminate|]. intros (D & L). rewrite (decimal_loop _ _ D). apply N.ltb_lt in L. rewrite L. reflexivity.
Qed.

(** ** the checks *)
Lemma c45_list ol oe ids : has_list (Claims ol oe) ids = true <->
  match ol with CText v => forall id, In id ids -> names_list v id | CNone => True end.
Proof.
  destruct ol as [v|]; cbn [has_list]; [|split; auto]. rewrite forallb_forall. split; intros H id Hid; specialize (H id Hid).
  - apply existsb_exists in H as (p & Hp & E). apply beq_spec in E. exists p. split; [apply part_spec, Hp|apply trim_spec, E].
  - destruct H as (p & Hp & Ht). apply existsb_exists. exists p. split; [apply part_spec, Hp|apply beq_spec, trim_spec, Ht].
Qed.
Lemma c45_elem ol oe ids : Forall (fun id => id < 2 ^ 64) ids -> has_elem (Claims ol oe) ids = true <->
  match oe with CText v => forall id, In id ids -> names_element v id | CNone => True end.
Proof.
  change (2 ^ 64) with B64. intros B. destruct oe as [v|]; cbn [has_elem]; [|split; auto]. rewrite forallb_forall. rewrite Forall_forall in B. split; intros H id Hid; specialize (H id Hid).
  - apply existsb_exists in H as (p & Hp & E). destruct (parse_uint (trim p)) as [w|] eqn:Ep; [|discriminate]. apply N.eqb_eq in E. subst w.
    apply parse_spec in Ep as (D & _). exists p, (trim p). split; [apply part_spec, Hp|]. split; [apply trim_spec; reflexivity|exact D].
  - destruct H as (p & t & Hp & Ht & D). apply existsb_exists. exists p. split; [apply part_spec, Hp|]. apply trim_spec in Ht. subst t.
    rewrite (proj2 (parse_spec (trim p) id) (conj D (B id Hid))). apply N.eqb_refl.
Qed.
