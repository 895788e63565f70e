(** What decoding can yield at all (C23). *)
From Coq Require Import Strings.Byte Strings.String.
From Verif.Lib Require Import Prelude.
From Verif.Model Require Import Element Msgp Codec.
From Verif.Spec Require Import CodecSpec.
From Verif.Proof Require Import MsgpP CodecP.
Open Scope N_scope.

Definition yields {A} (p : reader A) (P : A -> Prop) : Prop := forall b a r, p b = Some (a, r) -> P a.
Lemma y_bind {A B} (p : reader A) (f : A -> reader B) (Q : A -> Prop) P : yields p Q -> (forall a, Q a -> yields (f a) P) -> yields (bind p f) P.
Proof. intros H1 H2 b x r E. unfold bind in E. destruct (p b) as [[a r']|] eqn:Ep; [|discriminate]. exact (H2 a (H1 _ _ _ Ep) _ _ _ E). Qed.
Lemma y_ret {A} (a : A) (P : A -> Prop) : P a -> yields (ret a) P.
Proof. intros H b x r E. injection E as <- <-. exact H. Qed.
Lemma y_fail {A} (P : A -> Prop) : yields fail P.
Proof. intros b x r E. discriminate. Qed.
Lemma y_check {A} c (p : reader A) P : (c = true -> yields p P) -> yields (check c p) P.
Proof. intros H. destruct c; [exact (H eq_refl)|apply y_fail]. Qed.
Lemma y_any {A} (p : reader A) : yields p (fun _ => True).
Proof. intros b a r _. exact I. Qed.
Lemma y_imp {A} (p : reader A) (P Q : A -> Prop) : yields p P -> (forall a, P a -> Q a) -> yields p Q.
Proof. intros H1 H2 b a r E. apply H2, (H1 _ _ _ E). Qed.

Lemma y_next : yields next (fun c => c < 256).
Proof. intros [|c b] a r E; [discriminate|]. injection E as <- <-. unfold bN. pose proof (Byte.to_N_bounded c). lia. Qed.
Lemma y_take n : yields (take n) (fun b => length b = n).
Proof. intros b a r E. unfold take in E. destruct (length b <? n)%nat eqn:L; [discriminate|]. injection E as <- <-. rewrite firstn_length. apply Nat.ltb_ge in L. lia. Qed.
Lemma val_bound b : forall acc, val acc b < (acc + 1) * 256 ^ N.of_nat (length b).
Proof.
  induction b as [|c b IH]; intros acc; cbn [val length]; [cbn; lia|].
  pose proof (IH (acc * 256 + bN c)) as H. pose proof (Byte.to_N_bounded c) as B. rewrite Nat2N.inj_succ, N.pow_succ_r'.
  unfold bN in *. eapply N.lt_le_trans; [exact H|]. rewrite N.mul_assoc. apply N.mul_le_mono_r. lia.
Qed.
Lemma y_get k : yields (get k) (fun n => n < 256 ^ N.of_nat k).
Proof.
  unfold get. eapply y_bind; [apply y_take|]. intros b L. apply y_ret. pose proof (val_bound b 0) as H. rewrite L in H. lia.
Qed.
Lemma y_get_32 k : (k <= 4)%nat -> yields (get k) (fun n => n < 2 ^ 32).
Proof.
  intros H. eapply y_imp; [apply y_get|]. intros n Hn. cbv beta in *. eapply N.lt_le_trans; [exact Hn|].
  change (2 ^ 32) with (256 ^ 4). apply N.pow_le_mono_r; lia.
Qed.
Ltac y_cases := repeat match goal with |- yields (match ?x with _ => _ end) _ => destruct x end; try apply y_fail; try (apply y_get_32; lia).

Lemma y_uint bits : yields (r_uint bits) (fun n => n < 2 ^ bits).
Proof.
  unfold r_uint. eapply y_bind; [apply y_any|]. intros z _. apply y_check. intros C. apply andb_true_iff in C as (C1 & C2).
  apply y_ret. apply Z.leb_le in C1. apply Z.ltb_lt in C2.
  apply N2Z.inj_lt. rewrite Z2N.id by exact C1. rewrite N2Z.inj_pow. exact C2.
Qed.
Lemma y_int : yields r_int int64.
Proof.
  unfold r_int. eapply y_bind; [apply y_any|]. intros z _. apply y_check. intros C. apply andb_true_iff in C as (C1 & C2).
  apply y_ret. unfold int64. lia.
Qed.
Lemma y_bin : yields r_bin short.
Proof.
  unfold r_bin. eapply y_bind; [apply y_any|]. intros c _. eapply (y_bind _ _ (fun n => n < 2 ^ 32)).
  - y_cases.
  - intros n Hn. eapply y_imp; [apply y_take|]. intros b L. unfold short. rewrite L, N2Nat.id. exact Hn.
Qed.
Lemma length_of_bytes b : String.length (string_of_list_byte b) = length b.
Proof. induction b as [|c b IH]; cbn; [reflexivity|]. f_equal. exact IH. Qed.
Lemma y_str : yields r_str short_str.
Proof.
  unfold r_str. eapply y_bind; [apply y_next|]. intros c Hc. cbv beta in Hc. eapply (y_bind _ _ (fun n => n < 2 ^ 32)).
  - destruct ((160 <=? c) && (c <? 192)); [apply y_ret; change (2 ^ 32) with 4294967296; lia|]. y_cases.
  - intros n Hn. eapply y_bind; [apply y_take|]. intros b L. apply y_ret. unfold short_str. rewrite length_of_bytes, L, N2Nat.id. exact Hn.
Qed.
Lemma y_arr : yields r_arr (fun n => n < 2 ^ 32).
Proof.
  unfold r_arr. eapply y_bind; [apply y_next|]. intros c Hc. cbv beta in Hc.
  destruct ((144 <=? c) && (c <? 160)); [apply y_ret; change (2 ^ 32) with 4294967296; lia|]. y_cases.
Qed.
Lemma y_map : yields r_map (fun n => n < 2 ^ 32).
Proof.
  unfold r_map. eapply y_bind; [apply y_next|]. intros c Hc. cbv beta in Hc.
  destruct ((128 <=? c) && (c <? 144)); [apply y_ret; change (2 ^ 32) with 4294967296; lia|]. y_cases.
Qed.
Lemma y_times {A} (p : reader A) P : yields p P -> forall n, yields (times n p) (fun l => length l = n /\ Forall P l).
Proof.
  intros H. induction n as [|n IH]; cbn [times]; [apply y_ret; auto|].
  eapply y_bind; [exact H|]. intros x Hx. eapply y_bind; [exact IH|]. intros xs (L & F). apply y_ret. split; [cbn; lia|constructor; assumption].
Qed.
Ltac y_field L x H := eapply y_bind; [apply L|]; intros x H; cbv beta in H.

Lemma y_element : yields r_element element_fits.
Proof.
  unfold r_element. y_field @y_arr n Hn. apply y_check. intros _.
  y_field (y_uint 64) a Ha. y_field (y_uint 64) b Hb. y_field y_bin c Hc. y_field (y_uint 32) d Hd. y_field (y_uint 32) e He.
  apply y_ret. repeat split; assumption.
Qed.
Lemma y_elements : yields r_elements elements_fit.
Proof.
  unfold r_elements. y_field @y_arr n Hn. eapply y_imp; [apply (y_times _ _ y_element)|]. intros l (L & F). split; [|exact F].
  unfold short. rewrite L, N2Nat.id. exact Hn.
Qed.
Lemma y_segment : yields r_segment segment_fits.
Proof.
  unfold r_segment. y_field @y_arr n Hn. apply y_check. intros _.
  y_field (y_uint 32) a Ha. y_field (y_uint 64) b Hb. y_field (y_uint 64) c Hc. y_field (y_uint 32) d Hd. y_field (y_uint 32) e He.
  y_field y_int f Hf. y_field y_int g Hg. y_field y_str h Hh. apply y_ret. repeat split; assumption || apply Hf || apply Hg.
Qed.
Lemma y_field_ z : segments_fit z -> yields (r_field z) segments_fit.
Proof.
  intros (H1 & H2 & H3 & H4). unfold r_field. y_field y_str f Hf.
  destruct (String.eqb f "ID"); [y_field y_str v Hv; apply y_ret; repeat split; assumption|].
  destruct (String.eqb f "Segments").
  { y_field @y_arr n Hn. eapply y_bind; [apply (y_times _ _ y_segment)|]. intros v (L & F). apply y_ret.
    repeat split; try assumption. cbn. unfold short. rewrite L, N2Nat.id. exact Hn. }
  destruct (String.eqb f "NextID"); [y_field (y_uint 32) v Hv; apply y_ret; repeat split; assumption|].
  destruct (String.eqb f "IsIndex"); [eapply y_bind; [apply y_any|]; intros v _; apply y_ret; repeat split; assumption|].
  apply y_fail.
Qed.
Lemma y_fields n : forall z, segments_fit z -> yields (r_fields n z) segments_fit.
Proof.
  induction n as [|n IH]; intros z H; cbn [r_fields]; [apply y_ret; exact H|].
  eapply y_bind; [apply y_field_; exact H|]. intros z' H'. apply IH. exact H'.
Qed.
Lemma y_segments : yields r_segments segments_fit.
Proof.
  unfold r_segments. y_field @y_map n Hn. apply y_fields. repeat split; cbn; try (unfold short; cbn); try constructor; change (2 ^ 32) with 4294967296; lia.
Qed.

(** ** metadata: a repeated key *)
Definition put_all_meta (ps m : list (string * string)) := fold_left (fun m p => put_meta (fst p) (snd p) m) ps m.
Lemma put_meta_in k v m a : In a (map fst (put_meta k v m)) -> a = k \/ In a (map fst m).
Proof.
  induction m as [|[x y] m IH]; cbn [put_meta map fst]; [intros [<-|[]]; auto|].
  destruct (String.eqb x k) eqn:E; cbn [map fst]; intros [H|H]; auto.
  - right. right. exact H.
  - right. left. exact H.
  - destruct (IH H); auto. right. right. assumption.
Qed.
Lemma put_meta_nodup k v m : NoDup (map fst m) -> NoDup (map fst (put_meta k v m)).
Proof.
  induction m as [|[x y] m IH]; cbn [put_meta map fst]; intros N; [repeat constructor; intros []|].
  apply NoDup_cons_iff in N as (N1 & N2). destruct (String.eqb x k) eqn:E; cbn [map fst].
  - apply String.eqb_eq in E. subst x. constructor; assumption.
  - constructor; [|apply IH; exact N2]. intros H. apply put_meta_in in H as [H|H]; [subst; rewrite String.eqb_refl in E; discriminate|contradiction].
Qed.
Lemma put_meta_len k v m : (length (put_meta k v m) <= S (length m))%nat.
Proof. induction m as [|[x y] m IH]; cbn [put_meta length]; [lia|]. destruct (String.eqb x k); cbn [length]; lia. Qed.
Lemma put_meta_all (P : string * string -> Prop) k v m : P (k, v) -> Forall P m -> Forall P (put_meta k v m).
Proof.
  intros H F. induction F as [|[x y] m Hx F IH]; cbn [put_meta]; [constructor; auto|]. destruct (String.eqb x k); constructor; auto.
Qed.
Lemma put_all_fits (P : string * string -> Prop) ps : Forall P ps -> forall m, NoDup (map fst m) -> Forall P m ->
  NoDup (map fst (put_all_meta ps m)) /\ Forall P (put_all_meta ps m) /\ (length (put_all_meta ps m) <= length ps + length m)%nat.
Proof.
  unfold put_all_meta. induction 1 as [|[k v] ps H F IH]; intros m N M; cbn [fold_left fst snd length]; [auto|].
  destruct (IH (put_meta k v m) (put_meta_nodup _ _ _ N) (put_meta_all P k v m H M)) as (A & B & C).
  split; [exact A|]. split; [exact B|]. pose proof (put_meta_len k v m). lia.
Qed.
Lemma y_list : yields r_list list_fits.
Proof.
  unfold r_list. y_field @y_arr n Hn. apply y_check. intros _.
  y_field y_str a Ha. y_field y_str b Hb. y_field @y_map k Hk.
  eapply (y_bind _ _ (fun ps => length ps = N.to_nat k /\ Forall (fun p => short_str (fst p) /\ short_str (snd p)) ps)).
  { apply y_times. unfold r_pair. y_field y_str x Hx. y_field y_str y Hy. apply y_ret. auto. }
  intros ps (L & F). y_field y_int c Hc. y_field y_int d Hd. eapply y_bind; [apply y_any|]. intros e _. y_field y_str f Hf. y_field y_str g Hg.
  apply y_ret. destruct (put_all_fits _ ps F [] (NoDup_nil _) (Forall_nil _)) as (N & G & Q). unfold put_all_meta in *. cbn [length] in Q.
  unfold list_fits. cbn. repeat split; try assumption; try apply Hc; try apply Hd.
  unfold short. eapply N.le_lt_trans; [|exact Hk]. lia.
Qed.

Lemma value_put k v m x : value_of x (put_meta k v m) = if String.eqb k x then Some v else value_of x m.
Proof.
  unfold value_of. induction m as [|[a b] m IH]; cbn [put_meta find fst].
  - destruct (String.eqb k x); reflexivity.
  - destruct (String.eqb a k) eqn:E; cbn [find fst].
    + apply String.eqb_eq in E. subst a. destruct (String.eqb k x); reflexivity.
    + destruct (String.eqb a x) eqn:E2; [|exact IH]. apply String.eqb_eq in E2. subst a.
      rewrite String.eqb_sym, E. reflexivity.
Qed.
Lemma value_put_all ps : forall m x,
  value_of x (put_all_meta ps m) = fold_left (fun o p => if String.eqb (fst p) x then Some (snd p) else o) ps (value_of x m).
Proof.
  unfold put_all_meta. induction ps as [|[k v] ps IH]; intros m x; cbn [fold_left fst snd]; [reflexivity|].
  rewrite IH, value_put. reflexivity.
Qed.
Lemma list_repeated l rest : short_str (wl_id l) -> short_str (wl_set l) -> short (meta_of (wl_meta l)) ->
  Forall (fun p => short_str (fst p) /\ short_str (snd p)) (meta_of (wl_meta l)) -> int64 (wl_split l) -> int64 (wl_merge l) ->
  short_str (wl_scores l) -> short_str (wl_index l) ->
  exists m, r_list (w_list l ++ rest) = Some (WList (wl_id l) (wl_set l) (Some m) (wl_split l) (wl_merge l) (wl_load l) (wl_scores l) (wl_index l), rest) /\
    NoDup (map fst m) /\ forall k, value_of k m = last_of k (meta_of (wl_meta l)).
Proof.
  intros H1 H2 H3 H5 H6 H7 H8 H9. exists (put_all_meta (meta_of (wl_meta l)) []). split; [|split].
  - revert rest. change (reads r_list (w_list l) (WList (wl_id l) (wl_set l) (Some (put_all_meta (meta_of (wl_meta l)) [])) (wl_split l) (wl_merge l) (wl_load l) (wl_scores l) (wl_index l))).
    unfold w_list, r_list.
    change (Nb 0x98 :: ?x) with ([Nb 0x98] ++ x). eapply (reads_bind r_arr); [apply (reads_arr 8); reflexivity|].
    apply reads_check; [reflexivity|]. field reads_str. field reads_str. rewrite len32_small by exact H3.
    field reads_map. rewrite Nat2N.id.
    eapply reads_bind.
    { apply reads_times. intros p Hp. rewrite Forall_forall in H5. destruct (H5 _ Hp) as (Hk & Hv).
      unfold r_pair. field reads_str. apply reads_nil. field reads_str. rewrite <- surjective_pairing. apply reads_ret. }
    field reads_int. field reads_int. field reads_bool. field reads_str. apply reads_nil. field reads_str. apply reads_ret.
  - apply (put_all_fits (fun _ => True)); [apply Forall_forall; auto|constructor|constructor].
  - intros k. rewrite value_put_all. reflexivity.
Qed.

(** another number of fields *)
Lemma wrong_count n b r : r_arr b = Some (n, r) -> (n <> 5 -> r_element b = None) /\ (n <> 8 -> r_segment b = None /\ r_list b = None).
Proof.
  intros E. unfold r_element, r_segment, r_list, Msgp.bind, check. rewrite E. split; intros H.
  - destruct (N.eqb_spec n 5); [congruence|reflexivity].
  - destruct (N.eqb_spec n 8); [congruence|]. split; reflexivity.
Qed.

(** the fields of a segment collection in any order *)
Definition put_field (z : wsegs) (f : sfield) : wsegs :=
  match f with
  | FId s => WSegs s (ws_segs z) (ws_next z) (ws_index z) | FSegs l => WSegs (ws_id z) l (ws_next z) (ws_index z)
  | FNext n => WSegs (ws_id z) (ws_segs z) n (ws_index z) | FIndex b => WSegs (ws_id z) (ws_segs z) (ws_next z) b
  end.
Lemma sfield_reads z f : sfield_fits f -> reads (r_field z) (sfield_bytes f) (put_field z f).
Proof.
  destruct f as [s|l|n|b]; cbn [sfield_fits sfield_bytes put_field]; intros H.
  - eapply field_reads; [reflexivity|reflexivity|]. cbn [String.eqb]. apply (reads_end r_str (fun v => WSegs v (ws_segs z) (ws_next z) (ws_index z))), reads_str, H.
  - destruct H as [H2 H3]. eapply field_reads; [reflexivity|reflexivity|]. cbn [String.eqb]. cbn -[r_arr times w_arr len32 reads].
    rewrite len32_small by exact H2. field reads_arr. rewrite Nat2N.id. apply (reads_end (times _ _) (fun v => WSegs (ws_id z) v (ws_next z) (ws_index z))). apply reads_times.
    intros x Hx. apply segment_reads. rewrite Forall_forall in H3. apply H3, Hx.
  - eapply field_reads; [reflexivity|reflexivity|]. cbn -[r_uint w_uint reads]. apply (reads_end (r_uint 32) (fun v => WSegs (ws_id z) (ws_segs z) v (ws_index z))), reads_uint; [exact H|lia].
  - eapply field_reads; [reflexivity|reflexivity|]. cbn -[r_bool w_bool reads]. apply (reads_end r_bool (fun v => WSegs (ws_id z) (ws_segs z) (ws_next z) v)), reads_bool.
Qed.
Lemma sfields_read fs : Forall sfield_fits fs -> forall z, reads (r_fields (length fs) z) (flat_map sfield_bytes fs) (fold_left put_field fs z).
Proof.
  induction 1 as [|f fs Hf HF IH]; intros z; [apply reads_ret|]. cbn [length flat_map fold_left]. eapply fields_step; [apply sfield_reads, Hf|apply IH].
Qed.
Lemma put_fields fs : forall z, fold_left put_field fs z =
  WSegs (last_value (fun f => match f with FId s => Some s | _ => None end) (ws_id z) fs)
        (last_value (fun f => match f with FSegs l => Some l | _ => None end) (ws_segs z) fs)
        (last_value (fun f => match f with FNext n => Some n | _ => None end) (ws_next z) fs)
        (last_value (fun f => match f with FIndex b => Some b | _ => None end) (ws_index z) fs).
Proof.
  induction fs as [|f fs IH]; intros z; cbn [fold_left last_value]; [destruct z; reflexivity|]. rewrite IH. destruct f; reflexivity.
Qed.
Lemma any_fields fs rest : short fs -> Forall sfield_fits fs ->
  r_segments (w_map (len32 fs) ++ flat_map sfield_bytes fs ++ rest) = Some (from_fields fs, rest).
Proof.
  intros HS HF. rewrite app_assoc. revert rest. change (reads r_segments (w_map (len32 fs) ++ flat_map sfield_bytes fs) (from_fields fs)).
  unfold r_segments. rewrite len32_small by exact HS. eapply (reads_bind r_map); [apply reads_map, HS|]. rewrite Nat2N.id.
  replace (from_fields fs) with (fold_left put_field fs (WSegs "" [] 0 false)) by apply put_fields. apply sfields_read, HF.
Qed.
