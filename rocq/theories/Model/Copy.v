(** Model of calls that copy a whole list while other calls run on it: cloneElements
    (/repo/list.go:490-555) and Backup (1850-1913), on top of the locks of Model/Locks.v.  Both
    read the score segments one after the other; Backup does it under the update lock
    ([CLocked]), cloneElements without it ([CRead]: list.go:493 asks for segsAllowUpdates).
    The number of segments does not change while the segments are locked. *)
From Coq Require Import Strings.String.
From Verif.Lib Require Import Prelude ListAux.
From Verif.Model Require Import Element Elements Segment List Locks.
Open Scope nat_scope.

(** list.go:514, 1894: all score segments in order *)
Definition score_keys (l : lst) : list (bool * nat) := map (pair false) (seq 0 (length (ss_segs (l_scores l)))).
(** the segments that a call has read, in order *)
Definition copied (th : thread) : list seg := flat_map (fun e => match snd e with Some s => [s] | None => [] end) (t_got th).
(** list.go:508-555: the new list from the segments read.  Only the segments of the original
    matter; [merge], [split], [ns], [ni], [now] as in [clone_elements] *)
Definition clone_read (merge split : nat) (ns ni : string) (now : N) (l : list seg) : outcome lst :=
  clone_elements merge split ns ni now (mkL 0 0 "" "" (mkSegs "" l 0 false []) (mkSegs "" [] 0 true [])).
