(** A willow server with an idle connection, an ordinary request and a dequeue that waits is told to stop, and ends in order. *)
From Coq Require Import List Bool Arith.
From Verif Require Import ServerStop SpecServerStop ServerStopProps.
Import ListNotations.
Local Open Scope list_scope.

Definition busy_server : process :=
  mk false [(2, Idle); (1, Busy 11 Waits); (0, Busy 10 Works)] LOpen HWaits XListens KWaits 1 false
     [Begun 11 1; Begun 10 0; Opened 2; Opened 1; Opened 0].

Definition asked_server : process :=
  mk true [(2, Idle); (1, Busy 11 Waits); (0, Busy 10 Works)] LClosed (HDrains false) XListens KWaits 1 false
     [Closing; Asked; Begun 11 1; Begun 10 0; Opened 2; Opened 1; Opened 0].

Ltac isnew := cbn; intuition congruence.

Example busy_reached : runs Willow (start Willow) busy_server.
Proof.
  unfold busy_server.
  eapply runs_snoc; [|apply (st_task_new Willow (mk false [(2, Idle); (1, Busy 11 Waits); (0, Busy 10 Works)] LOpen HWaits XListens KWaits 0 false
     [Begun 11 1; Begun 10 0; Opened 2; Opened 1; Opened 0])); [reflexivity|reflexivity|discriminate]].
  eapply runs_snoc; [|apply (st_begin Willow (mk false [(2, Idle); (1, Idle); (0, Busy 10 Works)] LOpen HWaits XListens KWaits 0 false
     [Begun 10 0; Opened 2; Opened 1; Opened 0]) [(2, Idle)] [(0, Busy 10 Works)] 1 11 Waits); [reflexivity|reflexivity|discriminate|isnew]].
  eapply runs_snoc; [|apply (st_begin Willow (mk false [(2, Idle); (1, Idle); (0, Idle)] LOpen HWaits XListens KWaits 0 false
     [Opened 2; Opened 1; Opened 0]) [(2, Idle); (1, Idle)] [] 0 10 Works); [reflexivity|reflexivity|discriminate|isnew]].
  eapply runs_snoc; [|apply (st_open Willow (mk false [(1, Idle); (0, Idle)] LOpen HWaits XListens KWaits 0 false
     [Opened 1; Opened 0]) 2); [reflexivity|reflexivity|isnew]].
  eapply runs_snoc; [|apply (st_open Willow (mk false [(0, Idle)] LOpen HWaits XListens KWaits 0 false [Opened 0]) 1); [reflexivity|reflexivity|isnew]].
  eapply runs_snoc; [|apply (st_open Willow (start Willow) 0); [reflexivity|reflexivity|isnew]].
  exists 0. apply path_nil.
Qed.

Example asked_reached : runs Willow (start Willow) asked_server.
Proof.
  eapply runs_snoc; [eapply runs_snoc; [exact busy_reached|apply st_signal; reflexivity]|].
  apply (st_shutdown Willow (mk true (conns busy_server) LOpen HWaits XListens KWaits 1 false (Asked :: hist busy_server))); reflexivity.
Qed.

Example ended_in_order : exists s, runs Willow asked_server s /\ In (Ended true) (hist s) /\
  over (hist s) 10 /\ over (hist s) 11.
Proof.
  exists (mk true [] LClosed HDone (XReturned true) KReturned 0 true (Ended true :: Answered 10 :: Answered 11 :: [Closing; Asked; Begun 11 1; Begun 10 0; Opened 2; Opened 1; Opened 0])).
  split; [|split; [|split]].
  - eapply runs_snoc; [|apply (st_end Willow (mk true [] LClosed HDone (XReturned true) KReturned 0 false (Answered 10 :: Answered 11 :: [Closing; Asked; Begun 11 1; Begun 10 0; Opened 2; Opened 1; Opened 0])) true); reflexivity].
    eapply runs_snoc; [|apply (st_receive Willow (mk true [] LClosed (HHolds false) XWaits KReturned 0 false (Answered 10 :: Answered 11 :: [Closing; Asked; Begun 11 1; Begun 10 0; Opened 2; Opened 1; Opened 0])) false); reflexivity].
    eapply runs_snoc; [|apply (st_drained Willow (mk true [] LClosed (HDrains false) XWaits KReturned 0 false (Answered 10 :: Answered 11 :: [Closing; Asked; Begun 11 1; Begun 10 0; Opened 2; Opened 1; Opened 0])) false); reflexivity].
    eapply runs_snoc; [|apply (st_answer Willow (mk true [(0, Busy 10 Works)] LClosed (HDrains false) XWaits KReturned 0 false (Answered 11 :: [Closing; Asked; Begun 11 1; Begun 10 0; Opened 2; Opened 1; Opened 0])) [] [] 0 10); reflexivity].
    eapply runs_snoc; [|apply (st_told Willow (mk true [(1, Busy 11 Waits); (0, Busy 10 Works)] LClosed (HDrains false) XWaits KReturned 0 false ([Closing; Asked; Begun 11 1; Begun 10 0; Opened 2; Opened 1; Opened 0])) [] [(0, Busy 10 Works)] 1 11); reflexivity].
    eapply runs_snoc; [|apply (st_close_idle Willow (mk true [(2, Idle); (1, Busy 11 Waits); (0, Busy 10 Works)] LClosed (HDrains false) XWaits KReturned 0 false ([Closing; Asked; Begun 11 1; Begun 10 0; Opened 2; Opened 1; Opened 0])) [] [(1, Busy 11 Waits); (0, Busy 10 Works)] 2 false); reflexivity].
    eapply runs_snoc; [|apply (st_listen Willow (mk true [(2, Idle); (1, Busy 11 Waits); (0, Busy 10 Works)] LClosed (HDrains false) XListens KReturned 0 false ([Closing; Asked; Begun 11 1; Begun 10 0; Opened 2; Opened 1; Opened 0]))); [reflexivity|reflexivity|discriminate]].
    eapply runs_snoc; [|apply (st_comp_return Willow (mk true [(2, Idle); (1, Busy 11 Waits); (0, Busy 10 Works)] LClosed (HDrains false) XListens KTells 0 false ([Closing; Asked; Begun 11 1; Begun 10 0; Opened 2; Opened 1; Opened 0]))); reflexivity].
    eapply runs_snoc; [|apply (st_task_end Willow (mk true [(2, Idle); (1, Busy 11 Waits); (0, Busy 10 Works)] LClosed (HDrains false) XListens KTells 1 false ([Closing; Asked; Begun 11 1; Begun 10 0; Opened 2; Opened 1; Opened 0])) 0); reflexivity].
    eapply runs_snoc; [|apply (st_tell Willow asked_server); reflexivity].
    exists 0. apply path_nil.
  - cbn. tauto.
  - left. cbn. tauto.
  - left. cbn. tauto.
Qed.

(** After the signal a task of the component need not take it: nothing else is wrong, and the process stays. *)
Definition jammed_server : process :=
  mk true [] LClosed (HDrains false) XListens KJammed 0 false [Closing; Asked].

Example jammed_reached : runs Willow (start Willow) jammed_server /\ jammed jammed_server /\ (forall r, ~ stuck jammed_server r).
Proof.
  split; [|split; [reflexivity|intros r [c []]]].
  eapply runs_snoc; [|apply (st_jam Willow (mk true [] LClosed (HDrains false) XListens KTells 0 false [Closing; Asked])); reflexivity].
  eapply runs_snoc; [|apply (st_tell Willow (mk true [] LClosed (HDrains false) XListens KWaits 0 false [Closing; Asked])); reflexivity].
  eapply runs_snoc; [|apply (st_shutdown Willow (mk true [] LOpen HWaits XListens KWaits 0 false [Asked])); reflexivity].
  eapply runs_snoc; [|apply (st_signal Willow (start Willow)); reflexivity].
  exists 0. apply path_nil.
Qed.

Example jammed_stays : forall s b, runs Willow jammed_server s -> ~ In (Ended b) (hist s).
Proof.
  intros s b R. exact (jams Willow jammed_server s (proj1 jammed_reached) eq_refl R b).
Qed.
