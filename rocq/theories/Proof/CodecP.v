(** Proofs about the record codecs. *)
From Coq Require Import Strings.Byte Strings.String.
From Verif.Lib Require Import Prelude.
From Verif.Model Require Import Element Msgp Codec.
From Verif.Spec Require Import CodecSpec.
From Verif.Proof Require Import MsgpP.
Open Scope N_scope.

(** ** from one round trip and monotonicity, the rest *)
Lemma round_of {A} (ok : A -> Prop) w r : (forall a, ok a -> reads r (w a) a) -> round_trips ok w r.
Proof. intros H a rest Ha. apply H, Ha. Qed.
Lemma refuses_of {A} (ok : A -> Prop) w r : mono r -> (forall a, ok a -> reads r (w a) a) -> refuses_truncated ok w r.
Proof. intros M H a b c Ha E Hc. apply (truncated r (w a) a b c M (H a Ha) E Hc). Qed.
Lemma prefix_of {A} (ok : A -> Prop) w r : round_trips ok w r -> prefix_free ok w.
Proof. intros H a b c d Ha Hb E. pose proof (H a c Ha) as H1. rewrite E, (H b d Hb) in H1. injection H1 as -> ->. split; reflexivity. Qed.
Lemma streams_of {A} (ok : A -> Prop) (w : A -> list byte) : (forall a, ok a -> w a <> []) -> prefix_free ok w -> streams_unique ok w.
Proof.
  intros Hn P l1. induction l1 as [|a l1 IH]; intros [|b l2] H1 H2 E.
  - reflexivity.
  - exfalso. cbn [map concat] in E. symmetry in E. apply app_eq_nil in E as (E & _). apply Forall_cons_iff in H2 as (Hb & _). apply (Hn b Hb E).
  - exfalso. cbn [map concat] in E. apply app_eq_nil in E as (E & _). apply Forall_cons_iff in H1 as (Ha & _). apply (Hn a Ha E).
  - apply Forall_cons_iff in H1 as (Ha & H1). apply Forall_cons_iff in H2 as (Hb & H2). cbn [map concat] in E.
    destruct (P _ _ _ _ Ha Hb E) as (-> & E'). f_equal. apply IH; assumption.
Qed.

Lemma reads_nil {A} (p : reader A) w a : reads p (w ++ []) a -> reads p w a.
Proof. rewrite app_nil_r. auto. Qed.
Ltac field L := eapply reads_bind; [apply L; (assumption || reflexivity || lia)|].

(** ** version byte *)
Lemma version_reads v rest : v < 255 -> r_version (w_version v ++ rest) = (v, rest).
Proof. intros H. unfold r_version, w_version. rewrite (reads_uint 8 v); [reflexivity|change (2 ^ 8) with 256; lia|lia]. Qed.

(** ** elements *)
Lemma element_reads e : element_fits e -> reads r_element (w_element e) e.
Proof.
  intros (H1 & H2 & H3 & H4 & H5). unfold w_element, r_element.
  change (Nb 0x95 :: ?x) with ([Nb 0x95] ++ x). eapply (reads_bind r_arr); [apply (reads_arr 5); reflexivity|].
  apply reads_check; [reflexivity|]. field (reads_uint 64). field (reads_uint 64). field reads_bin. field (reads_uint 32).
  apply reads_nil. field (reads_uint 32). destruct e. apply reads_ret.
Qed.
Lemma mono_element : mono r_element.
Proof.
  apply mono_bind; [apply mono_arr|intros n]. apply mono_check.
  repeat (apply mono_bind; [first [apply mono_uint|apply mono_bin]|intros ?]). apply mono_ret.
Qed.
Lemma elements_reads l : elements_fit l -> reads r_elements (w_elements l) l.
Proof.
  intros (H1 & H2). unfold w_elements, r_elements. rewrite len32_small by exact H1.
  field reads_arr. rewrite Nat2N.id. apply reads_times. intros x Hx. apply element_reads. rewrite Forall_forall in H2. apply H2, Hx.
Qed.
Lemma mono_elements : mono r_elements.
Proof. apply mono_bind; [apply mono_arr|intros n]. apply mono_times, mono_element. Qed.

(** ** segments *)
Lemma segment_reads s : segment_fits s -> reads r_segment (w_segment s) s.
Proof.
  intros (H1 & H2 & H3 & H4 & H5 & H6 & H7 & H8). unfold w_segment, r_segment.
  change (Nb 0x98 :: ?x) with ([Nb 0x98] ++ x). eapply (reads_bind r_arr); [apply (reads_arr 8); reflexivity|].
  apply reads_check; [reflexivity|]. field (reads_uint 32). field (reads_uint 64). field (reads_uint 64). field (reads_uint 32). field (reads_uint 32).
  field reads_int. field reads_int. apply reads_nil. field reads_str. destruct s. apply reads_ret.
Qed.
Lemma mono_segment : mono r_segment.
Proof.
  apply mono_bind; [apply mono_arr|intros n]. apply mono_check.
  repeat (apply mono_bind; [first [apply mono_uint|apply mono_int|apply mono_str]|intros ?]). apply mono_ret.
Qed.

Lemma key_str k : N.of_nat (String.length k) < 32 -> w_key k = w_str k.
Proof.
  intros H. unfold w_key, w_str. assert (L : length (list_byte_of_string k) = String.length k) by (clear; induction k as [|c s IH]; cbn; [reflexivity|f_equal; exact IH]).
  rewrite len32_small by (rewrite L; lia). rewrite L. replace (N.of_nat (String.length k) <? 32) with true by lia. reflexivity.
Qed.
Lemma field_reads z w k f z' : N.of_nat (String.length k) < 32 ->
  (forall b, r_field z b = (x <- r_str ;; f x) b) -> reads (f k) w z' -> reads (r_field z) (w_key k ++ w) z'.
Proof.
  intros Hk E H r. rewrite E. rewrite key_str by exact Hk. rewrite <- app_assoc. unfold bind. rewrite (reads_str k) by (unfold short_str in *; lia). apply H.
Qed.
Lemma fields_step n z z' w1 w2 a : reads (r_field z) w1 z' -> reads (r_fields n z') w2 a -> reads (r_fields (S n) z) (w1 ++ w2) a.
Proof. intros H1 H2. cbn [r_fields]. eapply reads_bind; [exact H1|exact H2]. Qed.

Lemma segments_reads s : segments_fit s -> reads r_segments (w_segments s) s.
Proof.
  intros (H1 & H2 & H3 & H4). unfold w_segments, r_segments.
  change (Nb 0x84 :: ?x) with ([Nb 0x84] ++ x). eapply (reads_bind r_map); [apply (reads_map 4); reflexivity|].
  rewrite !(app_assoc (w_key _)). change (N.to_nat 4) with 4%nat.
  eapply fields_step; [eapply field_reads; [reflexivity|reflexivity|]; cbn [String.eqb]; apply (reads_end r_str), reads_str, H1|].
  cbn [ws_segs ws_next ws_index].
  rewrite app_assoc. eapply fields_step.
  { rewrite <- app_assoc. eapply field_reads; [reflexivity|reflexivity|]. cbn [String.eqb]. cbn -[r_arr times w_arr len32 reads].
    rewrite len32_small by exact H2. field reads_arr. rewrite Nat2N.id. apply (reads_end (times _ _)). apply reads_times.
    intros x Hx. apply segment_reads. rewrite Forall_forall in H3. apply H3, Hx. }
  cbn [ws_id ws_segs ws_next ws_index].
  eapply fields_step; [eapply field_reads; [reflexivity|reflexivity|]; cbn -[r_uint w_uint reads]; apply (reads_end (r_uint 32)), reads_uint; [exact H4|lia]|].
  cbn [ws_id ws_segs ws_next ws_index].
  rewrite <- (app_nil_r (w_key "IsIndex" ++ _)).
  eapply fields_step; [eapply field_reads; [reflexivity|reflexivity|]; cbn -[r_bool w_bool reads]; apply (reads_end r_bool), reads_bool|].
  destruct s. apply reads_ret.
Qed.
Lemma mono_field z : mono (r_field z).
Proof.
  apply mono_bind; [apply mono_str|intros f]. repeat apply mono_if; try apply mono_fail;
  repeat (apply mono_bind; [first [apply mono_str|apply mono_arr|apply mono_uint|apply mono_bool|apply mono_times, mono_segment]|intros ?]); apply mono_ret.
Qed.
Lemma mono_fields n : forall z, mono (r_fields n z).
Proof. induction n as [|n IH]; intros z; cbn [r_fields]; [apply mono_ret|]. apply mono_bind; [apply mono_field|intros ?; apply IH]. Qed.
Lemma mono_segments : mono r_segments.
Proof. apply mono_bind; [apply mono_map|intros n]. apply mono_fields. Qed.

(** ** list descriptors *)
Lemma put_meta_new k v m : ~ In k (map fst m) -> put_meta k v m = m ++ [(k, v)].
Proof.
  induction m as [|[a b] m IH]; intros H; cbn; [reflexivity|]. destruct (String.eqb a k) eqn:E.
  - apply String.eqb_eq in E. exfalso. apply H. left. exact E.
  - rewrite IH; [reflexivity|]. intros H'. apply H. right. exact H'.
Qed.
Lemma put_all_app ps m : NoDup (map fst (m ++ ps)) -> fold_left (fun m p => put_meta (fst p) (snd p) m) ps m = m ++ ps.
Proof.
  revert m. induction ps as [|[k v] ps IH]; intros m H; cbn [fold_left]; [rewrite app_nil_r; reflexivity|].
  cbn [fst snd]. rewrite put_meta_new.
  - rewrite IH; rewrite <- app_assoc; [reflexivity|exact H].
  - rewrite map_app in H. cbn in H. apply NoDup_remove_2 in H. intros H'. apply H. apply in_or_app. left. exact H'.
Qed.
Lemma put_all ps : NoDup (map fst ps) -> fold_left (fun m p => put_meta (fst p) (snd p) m) ps [] = ps.
Proof. intros H. apply (put_all_app ps []). exact H. Qed.

Lemma list_reads l : list_fits l -> reads r_list (w_list l) (with_map l).
Proof.
  intros (H1 & H2 & (H3 & H4 & H5) & H6 & H7 & H8 & H9). unfold w_list, r_list.
  change (Nb 0x98 :: ?x) with ([Nb 0x98] ++ x). eapply (reads_bind r_arr); [apply (reads_arr 8); reflexivity|].
  apply reads_check; [reflexivity|]. field reads_str. field reads_str. rewrite len32_small by exact H3.
  field reads_map. rewrite Nat2N.id.
  eapply reads_bind.
  { apply reads_times. intros p Hp. rewrite Forall_forall in H5. destruct (H5 _ Hp) as (Hk & Hv).
    unfold r_pair. field reads_str. apply reads_nil. field reads_str. rewrite <- surjective_pairing. apply reads_ret. }
  field reads_int. field reads_int. field reads_bool. field reads_str. apply reads_nil. field reads_str.
  rewrite put_all by exact H4. apply reads_ret.
Qed.
Lemma mono_list : mono r_list.
Proof.
  assert (mono r_pair) by (repeat (apply mono_bind; [apply mono_str|intros ?]); apply mono_ret).
  apply mono_bind; [apply mono_arr|intros n]. apply mono_check.
  repeat (apply mono_bind; [first [apply mono_map|apply mono_int|apply mono_str|apply mono_bool|apply mono_times; assumption]|intros ?]). apply mono_ret.
Qed.
Lemma with_map_id l : has_map l -> with_map l = l.
Proof. unfold has_map, with_map. destruct l as [? ? [m|] ? ? ? ? ?]; cbn; [reflexivity|]. intros H. contradiction H. reflexivity. Qed.
Lemma list_reads_id l : list_fits l /\ has_map l -> reads r_list (w_list l) l.
Proof. intros (H & Hm). pose proof (list_reads l H) as R. rewrite with_map_id in R by exact Hm. exact R. Qed.

(** ** final forms *)
Lemma codec_of {A} (ok : A -> Prop) w r : mono r -> (forall a, ok a -> reads r (w a) a) -> (forall a, ok a -> w a <> []) -> codec ok w r.
Proof.
  intros M H N. pose proof (round_of ok w r H) as R. repeat split.
  - exact R.
  - apply refuses_of; assumption.
  - apply (prefix_of ok w r R _ _ _ _ H0 H1 H2).
  - apply (prefix_of ok w r R _ _ _ _ H0 H1 H2).
  - apply streams_of; [exact N|]. apply (prefix_of ok w r R).
Qed.
Lemma element_codec : codec element_fits w_element r_element.
Proof. apply codec_of; [apply mono_element|apply element_reads|discriminate]. Qed.
Lemma w_arr_nonnil n b : w_arr n ++ b <> [].
Proof. unfold w_arr. destruct (n <? 16); [|destruct (n <? 2 ^ 16)]; discriminate. Qed.
Lemma elements_codec : codec elements_fit w_elements r_elements.
Proof. apply codec_of; [apply mono_elements|apply elements_reads|intros a _; apply w_arr_nonnil]. Qed.
Lemma segment_codec : codec segment_fits w_segment r_segment.
Proof. apply codec_of; [apply mono_segment|apply segment_reads|discriminate]. Qed.
Lemma segments_codec : codec segments_fit w_segments r_segments.
Proof. apply codec_of; [apply mono_segments|apply segments_reads|discriminate]. Qed.
Lemma list_codec : codec (fun l => list_fits l /\ has_map l) w_list r_list.
Proof. apply codec_of; [apply mono_list|apply list_reads_id|discriminate]. Qed.
