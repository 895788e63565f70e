(** C85: paging forward over lists that come and go. *)
From Coq Require Import Strings.String Strings.Ascii.
From Verif.Lib Require Import Prelude ListAux Bytes.
From Verif.Model Require Import Lists.
From Verif.Spec Require Import ListsSpec TourSpec.
From Verif.Proof Require Import ListsP ListsBack TourP.
Open Scope nat_scope.

(** Whatever lists are made and deleted between the pages and while they are made: the client gets
    IDs in ascending order, none twice, all after the one it started from. *)
Theorem C85_once : forall n vs from R e, (0 < n)%Z -> Forall proper_seen vs -> tour n vs from R e ->
  StronglySorted precedes (map lid R) /\ Forall (precedes from) (map lid R).
Proof. exact c85_once. Qed.
Print Assumptions C85_once.

(** If it goes on until a page says that nothing follows, it gets every list that was there all along. *)
Theorem C85_kept : forall n vs from R, (0 < n)%Z -> Forall proper_seen vs -> tour n vs from R true ->
  forall id, precedes from id -> all_along id vs -> exists l, In l R /\ lid l = id.
Proof. exact c85_kept. Qed.
Print Assumptions C85_kept.

(** What it gets was there at the time of one of its pages. *)
Theorem C85_real : forall n vs from R e, (0 < n)%Z -> Forall proper_seen vs -> tour n vs from R e ->
  forall l, In l R -> exists v, In v vs /\ In l (fetched_from v) /\ there (lid l) (chosen_from v).
Proof. exact c85_real. Qed.
Print Assumptions C85_real.

(** The number of pages is not bounded by the number of lists that are there: if a list is made
    ahead of the client for each that it gets, it goes on for any number of pages. *)
Theorem C85_bounded_refuted : forall k, exists vs R, length vs = S k /\ Forall proper_seen vs /\ Forall (fun v => length (chosen_from v) <= 2) vs /\ tour 1 vs [] R true.
Proof. exact c85_endless. Qed.
Print Assumptions C85_bounded_refuted.

Definition one (s : string) : lst := Lst (lit s) (lit "set") None 0.
Definition ls (l : list string) : list lst := map one l.
Ltac dist := unfold distinct; vm_compute; repeat (apply NoDup_cons; [intros H; repeat (destruct H as [H|H]; [discriminate|]); exact H|]); apply NoDup_nil.

(** An empty page does not mean that nothing follows: all lists of the page were deleted before
    they were fetched.  The client has no ID to go on from. *)
Definition gone : list seen := [mkSeen (ls ["a"; "b"; "c"; "d"]%string) (ls ["c"; "d"]%string)].
Theorem C85_empty_refuted : exists n vs from R e id, (0 < n)%Z /\ Forall proper_seen vs /\ tour n vs from R e /\ R = [] /\
  precedes from id /\ all_along id vs /\ ~ exists l, In l R /\ lid l = id.
Proof.
  exists 2%Z, gone, [], [], false, (lit "c"). split; [reflexivity|]. split; [constructor; [split; dist|constructor]|].
  split; [apply (tour_empty 2 _ [] (Page 0 2)); [vm_compute; reflexivity|discriminate]|]. split; [reflexivity|].
  split; [apply precedes_blt; reflexivity|]. split; [|intros (l & [] & _)].
  constructor; [|constructor]. split; exists (one "c"); (split; [vm_compute; tauto|reflexivity]).
Qed.
Print Assumptions C85_empty_refuted.

(** ** A run of the theorems: "b" is deleted and "bb" and "a" made after the first page, "c" deleted while the second is made *)
Definition trip : list seen :=
  [mkSeen (ls ["d"; "b"; "e"; "aa"; "c"]%string) (ls ["b"; "d"; "e"; "aa"; "c"]%string);
   mkSeen (ls ["e"; "bb"; "d"; "aa"; "c"; "a"]%string) (ls ["e"; "bb"; "d"; "aa"; "a"]%string);
   mkSeen (ls ["e"; "bb"; "d"; "aa"; "a"]%string) (ls ["e"; "bb"; "d"; "aa"; "a"]%string)].
Lemma trip_tour : tour 2 trip [] (ls ["aa"; "b"; "bb"; "d"; "e"]%string) true.
Proof.
  apply (tour_next 2 _ _ [] [one "aa"] (one "b") (Page 0 3) (ls ["bb"; "d"; "e"]%string) true); [vm_compute; reflexivity|discriminate|].
  apply (tour_next 2 _ _ _ [] (one "bb") (Page 2 2) (ls ["d"; "e"]%string) true); [vm_compute; reflexivity|discriminate|].
  apply (tour_done 2 _ _ _ (Page 3 0)); [vm_compute; reflexivity|reflexivity].
Qed.
Lemma trip_proper : Forall proper_seen trip.
Proof. repeat (constructor; [split; dist|]). constructor. Qed.
Example C85_trip : exists l, In l (ls ["aa"; "b"; "bb"; "d"; "e"]%string) /\ lid l = lit "d".
Proof.
  apply (C85_kept 2 trip [] _ eq_refl trip_proper trip_tour); [apply precedes_blt; reflexivity|].
  repeat (constructor; [split; exists (one "d"); (split; [vm_compute; tauto|reflexivity])|]). constructor.
Qed.
