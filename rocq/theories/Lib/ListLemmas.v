(** General list lemmas missing from the 8.16 standard library. *)
From Verif.Lib Require Import Prelude ListAux.

Lemma skipn_skipn {A} (l : list A) a b : skipn a (skipn b l) = skipn (b + a) l.
Proof.
  revert l; induction b as [|b IH]; intros l; [reflexivity|].
  destruct l; cbn; [apply skipn_nil|]. apply IH.
Qed.

Lemma nth_error_skipn {A} (l : list A) k n : nth_error (skipn k l) n = nth_error l (k + n).
Proof.
  revert l; induction k as [|k IH]; intros l; [reflexivity|].
  destruct l; cbn; [destruct n; reflexivity|]. apply IH.
Qed.

Lemma nth_error_firstn {A} (l : list A) k n : n < k -> nth_error (firstn k l) n = nth_error l n.
Proof.
  revert l n; induction k as [|k IH]; intros l n H; [lia|].
  destruct l; [reflexivity|]. destruct n; [reflexivity|]. cbn. apply IH. lia.
Qed.

Lemma skipn_cons_nth {A} (l : list A) k x : nth_error l k = Some x -> skipn k l = x :: skipn (S k) l.
Proof.
  revert k; induction l as [|y r IH]; intros k H; destruct k; cbn in *; try discriminate.
  - inv H; reflexivity.
  - apply IH; exact H.
Qed.

Lemma NoDup_app_intro {A} (a b : list A) :
  NoDup a -> NoDup b -> (forall z, In z a -> ~ In z b) -> NoDup (a ++ b).
Proof.
  induction a as [|y a IH]; cbn; intros Ha Hb Hab; [exact Hb|]. inv Ha. constructor.
  - rewrite in_app_iff. intros [C|C]; [auto|]. apply (Hab y); auto.
  - apply IH; auto.
Qed.

Lemma NoDup_app_iff {A} (a b : list A) :
  NoDup (a ++ b) <-> NoDup a /\ NoDup b /\ (forall z, In z a -> ~ In z b).
Proof.
  split; [|intros (H1 & H2 & H3); apply NoDup_app_intro; auto].
  induction a as [|y a IH]; cbn; intros H.
  - repeat split; [constructor|exact H|contradiction].
  - inv H. rewrite in_app_iff in H2. destruct (IH H3) as (A1 & A2 & A3).
    repeat split; auto.
    + constructor; auto.
    + intros z [<-|Hz]; auto.
Qed.

Lemma slice_app_skipn {A} (l : list A) a b : a <= b -> slice l a b ++ skipn b l = skipn a l.
Proof.
  intros H. unfold slice. replace (skipn b l) with (skipn (b - a) (skipn a l)).
  - apply firstn_skipn.
  - rewrite skipn_skipn. f_equal. lia.
Qed.

Lemma slice_length {A} (l : list A) a b : b <= length l -> length (slice l a b) = b - a.
Proof. intros H. unfold slice. rewrite firstn_length, skipn_length. lia. Qed.

Lemma filter_all {A} p (l : list A) : (forall x, In x l -> p x = true) -> filter p l = l.
Proof.
  induction l as [|x r IH]; cbn; intros H; [reflexivity|].
  rewrite H by (left; auto). rewrite IH; auto.
Qed.

Lemma filter_none {A} p (l : list A) : (forall x, In x l -> p x = false) -> filter p l = [].
Proof.
  induction l as [|x r IH]; cbn; intros H; [reflexivity|].
  rewrite H by (left; auto). rewrite IH; auto.
Qed.

Lemma find_idx_none {A} (p : A -> bool) l : find_idx p l = None <-> forall x, In x l -> p x = false.
Proof.
  induction l as [|x r IH]; cbn; [split; [contradiction|reflexivity]|].
  destruct (p x) eqn:E.
  - split; [discriminate|]. intros H. rewrite (H x) in E by auto. discriminate.
  - destruct (find_idx p r).
    + split; [discriminate|]. intros H. exfalso. assert (Some n = None) as C; [|discriminate].
      apply IH; auto.
    + split; [|reflexivity]. intros _ y [<-|Hy]; [exact E|]. apply IH; auto.
Qed.

Lemma find_idx_some {A} (p : A -> bool) l i : find_idx p l = Some i ->
  exists a x b, l = a ++ x :: b /\ length a = i /\ p x = true /\ Forall (fun y => p y = false) a.
Proof.
  revert i; induction l as [|x r IH]; cbn; intros i H; [discriminate|].
  destruct (p x) eqn:E; [inv H; exists [], x, r; auto|].
  destruct (find_idx p r) as [n|]; [|discriminate]. inv H.
  destruct (IH n eq_refl) as (a & y & b & -> & <- & Hp & Ha).
  exists (x :: a), y, b. repeat split; auto.
Qed.

Lemma find_idx_app_first {A} (p : A -> bool) a x b :
  Forall (fun y => p y = false) a -> p x = true -> find_idx p (a ++ x :: b) = Some (length a).
Proof.
  intros Ha Hx. induction Ha as [|y a Hy _ IH]; cbn; [rewrite Hx; reflexivity|].
  rewrite Hy, IH. reflexivity.
Qed.

Lemma Forall2_length {A B} (R : A -> B -> Prop) l1 l2 : Forall2 R l1 l2 -> length l1 = length l2.
Proof. induction 1; cbn; congruence. Qed.

Lemma In_firstn {A} (l : list A) n x : In x (firstn n l) -> In x l.
Proof. intros H. rewrite <- (firstn_skipn n l). apply in_or_app; auto. Qed.
Lemma In_skipn {A} (l : list A) n x : In x (skipn n l) -> In x l.
Proof. intros H. rewrite <- (firstn_skipn n l). apply in_or_app; auto. Qed.
