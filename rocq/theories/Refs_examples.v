(** Data for the examples beside the theorems about handles. *)
From Coq Require Import List.
Import ListNotations.
From Verif Require Import Refs Refs_spec.

(** Two actors (0 and 3). Of the first: a clone (1), a weak reference (2), a recipient made of
    the clone (4), a message sent with that (5), its context (6) and the reference a handler
    takes from it (7), a link (8) and a sender (9); then 0 and 4 are dropped. *)
Definition rf_ops : list op :=
  [Prepare true; Clone 0; Downgrade 0; Prepare false; ToRecipient 1; Tell 4; Handle_ 5; ContextRef 6; MakeLink 0;
   TakeSender 0; DropIt 0; DropIt 4].

(** What is left is counted and used. *)
Definition rf_use : list op := rf_ops ++ [StrongCount 2; WeakCount 7; Kill 7; ShutdownResult 7; Upgrade 2; SameChannel 9 7; SameChannel 9 3].

(** Everything strong is dropped. *)
Definition rf_end : list op := rf_ops ++ [DropIt 6; DropIt 7; DropIt 9; Upgrade 2; Upgrade 8].

Definition rf_parts : parts := mk_parts 0 true 1 2 3 4 5 6.
Definition rf_parts2 : parts := mk_parts 7 false 8 9 10 11 12 13.
Definition rf_history : list (op * result) :=
  [(Prepare true, MadeActor 0 rf_parts); (Clone 0, Made 1); (Downgrade 0, Made 2); (Prepare false, MadeActor 3 rf_parts2);
   (ToRecipient 1, Made 4); (Tell 4, Made 5); (Handle_ 5, Made 6); (ContextRef 6, Made 7); (MakeLink 0, Made 8);
   (TakeSender 0, Made 9); (DropIt 0, Dropped); (DropIt 4, Dropped)].
Definition rf_book : list entry :=
  [mk_entry KRef 0 false; mk_entry KRef 0 false; mk_entry KWeak 0 true; mk_entry KRef 3 true; mk_entry KRecipient 0 false;
   mk_entry KMessage 0 false; mk_entry KContext 0 true; mk_entry KRef 0 true; mk_entry KWeakSender 0 true; mk_entry KSender 0 true].
