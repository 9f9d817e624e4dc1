(** Model of the queue of messages from a client to one worker and of its sending thread.
    Source: Protocol/Client.cpp, ClientToWorkerConnection 1157-1197 (EnqueueSend, EnqueueSendJobAvailability), 192-224 and
    1159-1164 (quit), 1253-1309 (SendQueueMainLoop).  One step is one access to shared state: a section under
    m_SendQueueMutex, a semaphore operation, a load or store of m_SendThreadQuit.  Any number of threads post.
    Simplified: the message that opens the connection is not modelled, and a send fails only once the quit flag is set (the
    ASSERT at 1296). *)
From Coq Require Import List Arith Bool.
Import ListNotations.

Section SendQ.
Variable A : Type.

(** ClientSendQueueItem, 55-85: a message, or a MsgStatus from m_MsgStatus. *)
Inductive item := Msg (a : A) | Status (a : A).
(** Where the sending thread is: 1259, 1262, 1269, 1282 with the rest of its local queue, 1302 with the rest, returned. *)
Inductive place := Asleep | Awake | Locking | Sending (l : list item) | Sent (l : list item) | Stopped.
Record state := mkSt {
  queue : list A;           (* m_SendQueue *)
  status : option A;        (* m_MsgStatus, None when its stream is empty *)
  owed : nat;               (* threads that left the mutex and have not signalled yet *)
  sem : nat;                (* m_SendThreadWakeSemaphore *)
  quit : bool;              (* m_SendThreadQuit *)
  sender : place;
  wire : list item;         (* what Send has been given, oldest first *)
  posted : list item        (* history: everything enqueued *) }.
Definition init : state := mkSt [] None 0 0 false Asleep [] [].

Inductive event := Post (a : A) | PostStatus (a : A) | Signal | Quit | Sender (ok : bool).

Definition step (s : state) (e : event) : option state :=
  match e with
  (* EnqueueSend, the section under the mutex, 1169-1172 *)
  | Post a => Some (mkSt (queue s ++ [a]) (status s) (S (owed s)) (sem s) (quit s) (sender s) (wire s) (posted s ++ [Msg a]))
  (* EnqueueSendJobAvailability, 1190-1195; a status not sent yet is replaced *)
  | PostStatus a => Some (mkSt (queue s) (Some a) (S (owed s)) (sem s) (quit s) (sender s) (wire s) (posted s ++ [Status a]))
  (* m_SendThreadWakeSemaphore.Signal(), 1173, 1184, 1196, 216, 1162 *)
  | Signal => match owed s with
              | S n => Some (mkSt (queue s) (status s) n (S (sem s)) (quit s) (sender s) (wire s) (posted s))
              | O => None
              end
  (* m_SendThreadQuit.Store( true ), 215, 1161; its Signal follows *)
  | Quit => Some (mkSt (queue s) (status s) (S (owed s)) (sem s) true (sender s) (wire s) (posted s))
  (* SendQueueMainLoop *)
  | Sender ok =>
      match sender s with
      | Asleep => match sem s with
                  | S n => Some (mkSt (queue s) (status s) (owed s) n (quit s) Awake (wire s) (posted s))
                  | O => None
                  end
      | Awake => Some (mkSt (queue s) (status s) (owed s) (sem s) (quit s) (if quit s then Stopped else Locking) (wire s) (posted s))
      | Locking => match status s with
                   | Some a => Some (mkSt (queue s) None (owed s) (sem s) (quit s) (Sending [Status a]) (wire s) (posted s))
                   | None => Some (mkSt [] None (owed s) (sem s) (quit s) (Sending (map Msg (queue s))) (wire s) (posted s))
                   end
      | Sending [] => Some (mkSt (queue s) (status s) (owed s) (sem s) (quit s) Asleep (wire s) (posted s))
      | Sending (x :: r) =>
          if ok then Some (mkSt (queue s) (status s) (owed s) (sem s) (quit s) (Sent r) (wire s ++ [x]) (posted s))
          else if quit s then Some (mkSt (queue s) (status s) (owed s) (sem s) (quit s) (Sent r) (wire s) (posted s))
          else None
      | Sent r => Some (mkSt (queue s) (status s) (owed s) (sem s) (quit s) (if quit s then Stopped else Sending r) (wire s) (posted s))
      | Stopped => None
      end
  end.
Fixpoint run (s : state) (es : list event) : option state :=
  match es with
  | [] => Some s
  | e :: r => match step s e with Some s' => run s' r | None => None end
  end.
End SendQ.
Arguments Msg {A}. Arguments Status {A}. Arguments Asleep {A}. Arguments Awake {A}. Arguments Locking {A}. Arguments Sending {A}.
Arguments Sent {A}. Arguments Stopped {A}. Arguments Post {A}. Arguments PostStatus {A}. Arguments Signal {A}. Arguments Quit {A}.
Arguments Sender {A}. Arguments queue {A}. Arguments status {A}. Arguments owed {A}. Arguments sem {A}. Arguments quit {A}.
Arguments sender {A}. Arguments wire {A}. Arguments posted {A}. Arguments init {A}. Arguments step {A}. Arguments run {A}. Arguments mkSt {A}.
