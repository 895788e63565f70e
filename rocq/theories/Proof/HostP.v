From Coq Require Import Strings.String Strings.Ascii.
From Verif.Lib Require Import Prelude ListAux Bytes.
From Verif.Model Require Import Keys Access Hosts.
From Verif.Spec Require Import AccessSpec HostSpec.
From Verif.Proof Require Import AccessP.
Open Scope Z_scope.

Lemma pieces_cons sep c s p ps : c <> sep -> pieces sep s (p :: ps) -> pieces sep (c :: s) ((c :: p) :: ps).
Proof.
  intros N (A & B & C). split; [discriminate|]. split.
  - subst s. destruct ps; reflexivity.
  - intros q [<-|I]; [|apply C; now right]. intros [E|I]; [congruence|]. apply (C p); [now left|exact I].
Qed.
Lemma pieces_sep sep s ps : pieces sep s ps -> pieces sep (sep :: s) ([] :: ps).
Proof.
  intros (A & B & C). split; [discriminate|]. split.
  - subst s. destruct ps; [congruence|reflexivity].
  - intros q [<-|I]; [intros []|]. now apply C.
Qed.
Lemma colon_pieces s : pieces colon s (split_colon s).
Proof.
  induction s as [|c s IH]; cbn.
  - split; [discriminate|]. split; [reflexivity|]. intros p [<-|[]] [].
  - destruct (Ascii.eqb c colon) eqn:E.
    + apply Ascii.eqb_eq in E. subst. now apply pieces_sep.
    + apply Ascii.eqb_neq in E. destruct (split_colon s) as [|p ps]; [destruct (proj1 IH eq_refl)|]. now apply pieces_cons.
Qed.
Lemma comma_pieces s : pieces comma s (split_comma s).
Proof.
  induction s as [|c s IH]; cbn.
  - split; [discriminate|]. split; [reflexivity|]. intros p [<-|[]] [].
  - destruct (Ascii.eqb c comma) eqn:E.
    + apply Ascii.eqb_eq in E. subst. now apply pieces_sep.
    + apply Ascii.eqb_neq in E. destruct (split_comma s) as [|p ps]; [destruct (proj1 IH eq_refl)|]. now apply pieces_cons.
Qed.
(** pieces are unique *)
Lemma piece_first sep (a b r q : list ascii) : ~ In sep a -> ~ In sep b -> a ++ sep :: r = b ++ sep :: q -> a = b /\ r = q.
Proof.
  revert b. induction a as [|c a IH]; intros b A B E; destruct b as [|d b]; cbn in E; inv E; auto.
  - exfalso. apply B. now left.
  - exfalso. apply A. now left.
  - destruct (IH b) as (-> & ->); auto; intros I; [apply A|apply B]; now right.
Qed.
Lemma pieces_unique sep l : forall s l', pieces sep s l -> pieces sep s l' -> l = l'.
Proof.
  induction l as [|x l IH]; intros s l' (A & B & C) (A' & B' & C'); [congruence|].
  destruct l' as [|y l']; [congruence|]. subst s.
  assert (X : ~ In sep x) by (apply C; now left). assert (Y : ~ In sep y) by (apply C'; now left).
  destruct l as [|x2 l], l' as [|y2 l']; cbn [join] in B'.
  - now subst.
  - subst x. exfalso. apply X. apply in_or_app. right. now left.
  - subst y. exfalso. apply Y. apply in_or_app. right. now left.
  - destruct (piece_first _ _ _ _ _ X Y B') as (-> & E). f_equal.
    apply (IH (join sep (x2 :: l))).
    + split; [discriminate|]. split; [reflexivity|]. intros p I. apply C. right. exact I.
    + split; [discriminate|]. split; [exact E|]. intros p I. apply C'. right. exact I.
Qed.

(** digits *)
Lemma digits_snoc s : forall n c, digits_loop n (s ++ [c]) = match digits_loop n s with DVal m => digits_loop m [c] | d => d end.
Proof.
  induction s as [|d s IH]; intros n c; [reflexivity|]. cbn [app digits_loop].
  destruct (_ && _); [|reflexivity]. destruct (_ <=? _)%N; [reflexivity|]. apply IH.
Qed.
Lemma loop_digit n d : (d <= 9)%N -> digits_loop n [ascii_of_N (48 + d)] = if (2 ^ 64 <=? 10 * n + d)%N then DRange else DVal (10 * n + d).
Proof.
  intros D. cbn [digits_loop]. rewrite digit_of by exact D.
  replace ((48 <=? 48 + d) && (48 + d <=? 57))%N with true by lia.
  replace (48 + d - 48)%N with d by lia. reflexivity.
Qed.
Lemma dec_loop s v : decimal s v -> digits_loop 0 s = if (v <? 2 ^ 64)%N then DVal v else DRange.
Proof.
  induction 1 as [d D|s v d H IH D].
  - rewrite loop_digit by exact D. replace (10 * 0 + d)%N with d by lia.
    replace (2 ^ 64 <=? d)%N with false by lia. replace (d <? 2 ^ 64)%N with true by lia. reflexivity.
  - rewrite digits_snoc, IH. destruct (v <? 2 ^ 64)%N eqn:V.
    + rewrite loop_digit by exact D. destruct (2 ^ 64 <=? 10 * v + d)%N eqn:E; destruct (10 * v + d <? 2 ^ 64)%N eqn:F; try reflexivity; lia.
    + destruct (10 * v + d <? 2 ^ 64)%N eqn:F; [lia|reflexivity].
Qed.
Lemma range_app x y n : digits_loop n x = DRange -> digits_loop n (x ++ y) = DRange.
Proof.
  revert n. induction x as [|c x IH]; intros n; cbn [app digits_loop]; [discriminate|].
  destruct (_ && _); [|discriminate]. destruct (_ <=? _)%N; [auto|]. apply IH.
Qed.
Lemma is_digit c : ((48 <=? N_of_ascii c) && (N_of_ascii c <=? 57))%N = true -> exists d, (d <= 9)%N /\ c = ascii_of_N (48 + d).
Proof.
  intros H. exists (N_of_ascii c - 48)%N. split; [lia|].
  replace (48 + (N_of_ascii c - 48))%N with (N_of_ascii c) by lia. now rewrite ascii_N_embedding.
Qed.
(** what the loop finds, from a number that is read already *)
Lemma loop_inv s : forall x n, decimal x n -> (n < 2 ^ 64)%N ->
  match digits_loop n s with
  | DVal v => decimal (x ++ s) v /\ (v < 2 ^ 64)%N
  | DRange => exists p q v, s = p ++ q /\ decimal (x ++ p) v /\ (2 ^ 64 <= v)%N
  | DBad => forall v, ~ decimal (x ++ s) v
  end.
Proof.
  induction s as [|c s IH]; intros x n D L; cbn [digits_loop].
  - rewrite app_nil_r. auto.
  - destruct (_ && _) eqn:I.
    + destruct (is_digit _ I) as (d & Dd & ->). rewrite digit_of by exact Dd. replace (48 + d - 48)%N with d by lia.
      pose proof (dec_more _ _ _ D Dd) as D'. destruct (2 ^ 64 <=? 10 * n + d)%N eqn:E.
      * exists [ascii_of_N (48 + d)], s, (10 * n + d)%N. split; [reflexivity|]. split; [exact D'|lia].
      * assert (10 * n + d < 2 ^ 64)%N as L' by lia. specialize (IH _ _ D' L').
        destruct (digits_loop _ s).
        -- intros v. specialize (IH v). now rewrite <- app_assoc in IH.
        -- destruct IH as (p & q & v & -> & P & V). exists (ascii_of_N (48 + d) :: p), q, v. split; [reflexivity|].
           split; [|exact V]. now rewrite <- app_assoc in P.
        -- now rewrite <- app_assoc in IH.
    + intros v H. assert (In c (x ++ c :: s)) as J by (apply in_or_app; right; now left).
      assert (forall s v, decimal s v -> forall c, In c s -> ((48 <=? N_of_ascii c) && (N_of_ascii c <=? 57))%N = true) as K.
      { clear. induction 1 as [d D|s v d H IH D]; intros c J.
        - destruct J as [<-|[]]. rewrite digit_of by exact D. lia.
        - apply in_app_or in J. destruct J as [J|[<-|[]]]; [auto|]. rewrite digit_of by exact D. lia. }
      rewrite (K _ _ H _ J) in I. discriminate.
Qed.
Lemma dec_first s v : decimal s v -> exists d r, s = ascii_of_N (48 + d) :: r /\ (d <= 9)%N.
Proof. induction 1 as [d D|s v d H (d0 & r & -> & D0) D]; [eauto|]. exists d0, (r ++ [ascii_of_N (48 + d)]). auto. Qed.
Lemma digit_not c d : (d <= 9)%N -> c = ascii_of_N (48 + d) -> c <> "+"%char /\ c <> "-"%char.
Proof. intros D ->. assert (d = 0 \/ d = 1 \/ d = 2 \/ d = 3 \/ d = 4 \/ d = 5 \/ d = 6 \/ d = 7 \/ d = 8 \/ d = 9)%N as H by lia.
  repeat (destruct H as [->|H]; [split; discriminate|]). subst. split; discriminate. Qed.
Lemma unsigned_inv s :
  match unsigned s with
  | DVal v => decimal s v /\ (v < 2 ^ 64)%N
  | DRange => exists p q v, s = p ++ q /\ decimal p v /\ (2 ^ 64 <= v)%N
  | DBad => (forall v, ~ decimal s v) /\ forall p q v, s = p ++ q -> decimal p v -> (v < 2 ^ 64)%N
  end.
Proof.
  destruct (unsigned s) eqn:U; unfold unsigned in U.
  - destruct s as [|c s].
    + split; [intros v H; apply decimal_ne in H; congruence|]. intros p q v E H. apply decimal_ne in H. destruct p; [congruence|discriminate].
    + split.
      * intros v H. apply dec_loop in H. rewrite U in H. destruct (_ <? _)%N; discriminate.
      * intros p q v E H. apply dec_loop in H. destruct (v <? 2 ^ 64)%N eqn:V; [lia|].
        rewrite E, (range_app p q 0 H) in U. discriminate.
  - destruct s as [|c s]; [discriminate|]. cbn [digits_loop] in U. destruct (_ && _) eqn:I; [|discriminate].
    destruct (is_digit _ I) as (d & D & ->). rewrite digit_of in U by exact D.
    replace (10 * 0 + (48 + d - 48))%N with d in U by lia. replace (2 ^ 64 <=? d)%N with false in U by lia.
    pose proof (loop_inv s [ascii_of_N (48 + d)] d (dec_one d D) ltac:(lia)) as K. rewrite U in K.
    destruct K as (p & q & v & -> & P & V). exists (ascii_of_N (48 + d) :: p), q, v. auto.
  - destruct s as [|c s]; [discriminate|]. cbn [digits_loop] in U. destruct (_ && _) eqn:I; [|discriminate].
    destruct (is_digit _ I) as (d & D & ->). rewrite digit_of in U by exact D.
    replace (10 * 0 + (48 + d - 48))%N with d in U by lia. replace (2 ^ 64 <=? d)%N with false in U by lia.
    pose proof (loop_inv s [ascii_of_N (48 + d)] d (dec_one d D) ltac:(lia)) as K. rewrite U in K. exact K.
Qed.
Lemma signed_dec c r v : c = "+"%char \/ c = "-"%char -> ~ decimal (c :: r) v.
Proof. intros H D. apply dec_first in D. destruct D as (d & r' & E & L). inversion E as [[E1 E2]]. destruct (digit_not c d L E1) as (X & Y). destruct H as [H|H]; [exact (X H)|exact (Y H)]. Qed.

Definition port_spec (q : bytes) (z : Z) : Prop :=
  (exists v, numeral q v /\ (0 < v)%N /\ z = Z.min (Z.of_N v) (2 ^ 63 - 1)) \/
  (too_long q /\ z = 2 ^ 63 - 1) \/ (~ too_long q /\ (forall v, numeral q v -> v = 0%N) /\ z <= 0).
Lemma port_of (q r : bytes) : (forall v, numeral q v <-> decimal r v) -> (too_long q <-> exists p q v, r = p ++ q /\ decimal p v /\ (2 ^ 64 <= v)%N) ->
  port_spec q (int64_of false (unsigned r)).
Proof.
  intros N T. pose proof (unsigned_inv r) as U. unfold port_spec. destruct (unsigned r) as [| |v]; cbn [int64_of].
  - right. right. destruct U as (U & W). split; [|split; [intros v H; apply N in H; destruct (U v H)|lia]].
    intros H. apply T in H. destruct H as (p & q' & v & E & D & L). specialize (W _ _ _ E D). lia.
  - right. left. split; [|reflexivity]. apply T. exact U.
  - destruct U as (D & L). destruct (N.eq_dec v 0) as [->|Z].
    + right. right. split; [|split; [|lia]].
      * intros H. apply T in H. destruct H as (p & q' & v & E & D' & L'). subst r.
        apply dec_loop in D. apply dec_loop in D'. replace (v <? 2 ^ 64)%N with false in D' by lia.
        rewrite (range_app _ q' _ D') in D. discriminate.
      * intros v H. apply N in H. apply dec_loop in H. apply dec_loop in D. rewrite D in H. destruct (v <? 2 ^ 64)%N; inv H. reflexivity.
    + left. exists v. split; [now apply N|]. split; [lia|reflexivity].
Qed.
Lemma atoi_spec q : port_spec q (atoi q).
Proof.
  destruct q as [|c r].
  { right. right. split; [|split; [|cbn; lia]].
    - intros (x & y & v & E & N & _). destruct x; [|discriminate]. destruct N as [N|(r & N & _)]; [now apply decimal_ne in N|discriminate].
    - intros v [N|(r & N & _)]; [now apply decimal_ne in N|discriminate]. }
  unfold atoi. destruct (Ascii.eqb c "-") eqn:M; [apply Ascii.eqb_eq in M; subst c|].
  - right. right. split; [|split].
    + intros (x & y & v & E & N & V). destruct N as [N|(r' & N & _)].
      * destruct x as [|c x]; [now apply decimal_ne in N|]. inv E. exact (signed_dec _ _ _ (or_intror eq_refl) N).
      * subst x. discriminate.
    + intros v [N|(r' & N & _)]; [destruct (signed_dec _ _ _ (or_intror eq_refl) N)|discriminate].
    + destruct (unsigned r); cbn; lia.
  - destruct (Ascii.eqb c "+") eqn:P; [apply Ascii.eqb_eq in P; subst c|].
    + apply port_of.
      * intros v. split; [|intros D; right; eauto]. intros [N|(r' & E & N)]; [destruct (signed_dec _ _ _ (or_introl eq_refl) N)|]. now inv E.
      * split.
        -- intros (x & y & v & E & [N|(r' & -> & N)] & V).
           ++ destruct x as [|c x]; [now apply decimal_ne in N|]. inv E. destruct (signed_dec _ _ _ (or_introl eq_refl) N).
           ++ injection E as E. exists r', y, v. auto.
        -- intros (p & q & v & -> & D & V). exists ("+"%char :: p), q, v. split; [reflexivity|]. split; [right; eauto|exact V].
    + apply Ascii.eqb_neq in P. apply port_of.
      * intros v. split; [|intros D; now left]. intros [N|(r' & E & N)]; [exact N|]. injection E as E1 E2. destruct (P E1).
      * split.
        -- intros (x & y & v & E & [N|(r' & -> & N)] & V); [exists x, y, v; auto|]. cbn in E. injection E as E1 E2. destruct (P E1).
        -- intros (p & q & v & E & D & V). exists p, q, v. split; [exact E|]. split; [now left|exact V].
Qed.
Lemma host_fits d p : host_spec d p (host_of d p).
Proof.
  unfold host_of. pose proof (colon_pieces p) as C. destruct (split_colon p) as [|n [|q qs]]; [destruct (proj1 C eq_refl)| |].
  - exists n, []. split; [exact C|]. split; [now apply trim_spec|reflexivity].
  - exists n, (q :: qs). split; [exact C|]. split; [now apply trim_spec|]. cbn [snd].
    destruct (atoi_spec q) as [(v & N & V & E)|[(T & E)|(T & Z & E)]].
    + left. exists v. split; [exact N|]. split; [exact V|]. destruct (0 <? atoi q) eqn:L; [exact E|]. lia.
    + right. left. split; [exact T|]. destruct (0 <? atoi q) eqn:L; [exact E|]. lia.
    + right. right. split; [exact T|]. split; [exact Z|]. destruct (0 <? atoi q) eqn:L; [lia|reflexivity].
Qed.
Lemma c74_hosts s d : exists ps, pieces ","%char s ps /\ Forall2 (host_spec d) ps (parse_hosts s d).
Proof.
  exists (split_comma s). split; [apply comma_pieces|]. unfold parse_hosts. induction (split_comma s) as [|p ps IH]; cbn; constructor; auto.
  apply host_fits.
Qed.
(** the spec leaves one answer *)
Lemma decimal_value s v : decimal s v -> v = fold_left (fun n c => 10 * n + (N_of_ascii c - 48))%N s 0%N.
Proof.
  induction 1 as [d D|s v d H IH D].
  - cbn [fold_left]. rewrite digit_of by exact D. lia.
  - rewrite fold_left_app, <- IH. cbn [fold_left]. rewrite digit_of by exact D. lia.
Qed.
Lemma decimal_unique s v : decimal s v -> forall v', decimal s v' -> v = v'.
Proof. intros H v' H'. rewrite (decimal_value _ _ H), (decimal_value _ _ H'). reflexivity. Qed.
Lemma numeral_unique q v v' : numeral q v -> numeral q v' -> v = v'.
Proof.
  intros [N|(r & -> & N)] [N'|(r' & E & N')].
  - eapply decimal_unique; eauto.
  - subst q. destruct (signed_dec _ _ _ (or_introl eq_refl) N).
  - destruct (signed_dec _ _ _ (or_introl eq_refl) N').
  - injection E as <-. eapply decimal_unique; eauto.
Qed.
Lemma numeral_long q v : numeral q v -> too_long q -> (2 ^ 63 - 1 < v)%N.
Proof.
  intros N (x & y & w & E & N' & W). subst q.
  assert (K : forall x y v w, decimal (x ++ y) v -> decimal x w -> (2 ^ 64 <= w)%N -> (2 ^ 63 - 1 < v)%N).
  { clear. intros x y v w D D' W. apply dec_loop in D. apply dec_loop in D'. replace (w <? 2 ^ 64)%N with false in D' by lia.
    rewrite (range_app _ y _ D') in D. destruct (v <? 2 ^ 64)%N eqn:V; [discriminate|lia]. }
  destruct N' as [N'|(r & -> & N')]; destruct N as [N|(r' & E & N)].
  - eapply K; eauto.
  - destruct x as [|c x]; [now apply decimal_ne in N'|]. injection E as -> E. destruct (signed_dec _ _ _ (or_introl eq_refl) N').
  - destruct (signed_dec _ _ _ (or_introl eq_refl) N).
  - injection E as <-. eapply K; eauto.
Qed.
(** the spec leaves one answer *)
Lemma trimmed_unique s t t' : trimmed s t -> trimmed s t' -> t = t'.
Proof. intros A B. apply trim_spec in A. apply trim_spec in B. congruence. Qed.
Lemma host_unique d p h h' : host_spec d p h -> host_spec d p h' -> h = h'.
Proof.
  intros (n & qs & P & T & H) (n' & qs' & P' & T' & H').
  pose proof (pieces_unique _ _ _ _ P P') as E. injection E as <- <-.
  destruct h as [a b], h' as [a' b']. cbn [fst snd] in *. rewrite (trimmed_unique _ _ _ T T'). f_equal.
  destruct qs as [|q qs]; [congruence|].
  destruct H as [(v & N & V & E)|[(L & E)|(L & Z & E)]], H' as [(v' & N' & V' & E')|[(L' & E')|(L' & Z' & E')]]; subst; try reflexivity; try contradiction.
  - now rewrite (numeral_unique _ _ _ N N').
  - pose proof (numeral_long _ _ N L'). lia.
  - specialize (Z' v N). lia.
  - pose proof (numeral_long _ _ N' L). lia.
  - specialize (Z v' N'). lia.
Qed.
Lemma hosts_unique d ps : forall l l', Forall2 (host_spec d) ps l -> Forall2 (host_spec d) ps l' -> l = l'.
Proof.
  induction ps as [|p ps IH]; intros l l' F F'; inversion F; inversion F'; subst; [reflexivity|].
  f_equal; [eapply host_unique; eauto|apply IH; assumption].
Qed.
Lemma c74_parse s d l : parse_hosts s d = l <-> exists ps, pieces ","%char s ps /\ Forall2 (host_spec d) ps l.
Proof.
  split; [intros <-; apply c74_hosts|]. intros (ps & P & F). destruct (c74_hosts s d) as (ps' & P' & F').
  rewrite (pieces_unique _ _ _ _ P P') in F. eapply hosts_unique; eauto.
Qed.
Lemma c74_count s d : length (parse_hosts s d) = S (length (filter (Ascii.eqb ","%char) s)).
Proof.
  unfold parse_hosts. rewrite map_length. induction s as [|c s IH]; [reflexivity|]. cbn [split_comma filter].
  rewrite (Ascii.eqb_sym "," c). unfold comma. destruct (Ascii.eqb c ","); cbn [length]; [now f_equal|].
  destruct (split_comma s); cbn [length] in *; lia.
Qed.
Lemma c74_some s : new_hosts s = Some (parse_hosts s 3000).
Proof. unfold new_hosts. pose proof (c74_count s 3000). destruct (parse_hosts s 3000); [discriminate|reflexivity]. Qed.
Lemma c74_port s d n p : In (n, p) (parse_hosts s d) -> p = d \/ 0 < p <= 2 ^ 63 - 1.
Proof.
  unfold parse_hosts. rewrite in_map_iff. intros (q & E & _). pose proof (host_fits d q) as (m & qs & _ & _ & H).
  rewrite E in H. cbn [snd] in H. destruct qs as [|x qs]; [auto|].
  destruct H as [(v & _ & V & ->)|[(_ & ->)|(_ & _ & ->)]]; [right; lia|right; lia|auto].
Qed.
