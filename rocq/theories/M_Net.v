(** Model of message transport: Core/Network/TCPConnectionPool.cpp (Send, SendInternal, HandleRead, ConnectionThreadFunction) and the
    assembling of messages from packets in Protocol/Client.cpp and Protocol/Server.cpp (OnReceive).
    One connection.  A connection is written to by one thread at a time (asserted by the code) and read by its own thread.
    The operating system's part is given by event lists. *)
From Coq Require Import List Arith Bool NArith Lia.
From Verif Require Import M_Bytes.
Import ListNotations.
Local Open Scope N_scope.

(** A message object as it lies in memory, and the payload sent with it if any (Protocol.h 85-97: byte 0 is the type, byte 1 the size,
    byte 2 whether there is a payload). *)
Record message := { body : bytes; payload : option bytes }.

(** * Sending *)

(** A SendBuffer: size field and data. *)
Definition buffer := (N * bytes)%type.
(** The two versions of Send, TCPConnectionPool.cpp 492-532.  Sizes are cut to 32 bits. *)
Definition send_buffers (m : message) : list buffer :=
  let size := u32 (blen (body m)) in
  [(4, le_bytes 4 size); (size, body m)] ++
  match payload m with
  | None => []
  | Some pl => let psize := u32 (blen pl) in [(4, le_bytes 4 psize); (psize, pl)]
  end.

(** totalBytes, TCPConnectionPool.cpp 555-560: 32 bit. *)
Definition total_bytes (bufs : list buffer) : N := fold_left (fun t b => u32 (t + fst b)) bufs 0.

Definition slice (off n : N) (l : bytes) : bytes := firstn (N.to_nat n) (skipn (N.to_nat off) l).
(** The unsent parts of the buffers, TCPConnectionPool.cpp 579-601. *)
Fixpoint fill (sent offset : N) (bufs : list buffer) : list bytes :=
  match bufs with
  | [] => []
  | (size, data) :: r =>
      let overlap := if offset <? sent then sent - offset else 0 in
      let rest := fill sent (u32 (offset + size)) r in
      if overlap <? size then let remainder := size - overlap in slice (size - remainder) remainder data :: rest else rest
  end.

(** What writev / WSASend may do: take n bytes (at least one, at most what is offered), or fail.  A failure that would block is retried
    unless the connection is being closed or the time is up. *)
Inductive wevent := Took (n : N) | Blocked | BlockedClosing | BlockedTimeout | WriteError.
(** Where a call of SendInternal is: returned true, returned false, or still in its loop. *)
Inductive sresult := Sent | NotSent | Sending.

(** The loop of SendInternal, TCPConnectionPool.cpp 575-639, and the bytes it puts on the wire. *)
Fixpoint send_loop (total : N) (bufs : list buffer) (sent : N) (evs : list wevent) : bytes * sresult :=
  if sent <? total then
    match evs with
    | [] => ([], Sending)
    | Took n :: evs' =>
        let offered := concat (fill sent 0 bufs) in
        let k := N.min (N.max 1 n) (blen offered) in
        if k =? 0 then ([], NotSent)
        else let (w, res) := send_loop total bufs (u32 (sent + k)) evs' in (firstn (N.to_nat k) offered ++ w, res)
    | Blocked :: evs' => send_loop total bufs sent evs'
    | BlockedClosing :: _ | BlockedTimeout :: _ | WriteError :: _ => ([], NotSent)
    end
  else ([], Sent).

(** Successive calls of Send on a connection.  A failed one leaves the connection marked for closing (Disconnect, lines 623 and 633), or
    finds it so (lines 543-546 and 615-619); every later call then returns false at once.  Nothing follows a call that has not returned. *)
Fixpoint run_sends (quit : bool) (calls : list (message * list wevent)) : bytes * list sresult :=
  match calls with
  | [] => ([], [])
  | (m, evs) :: r =>
      if quit then let (w, rs) := run_sends quit r in (w, NotSent :: rs)
      else
        let bufs := send_buffers m in
        let (w, res) := send_loop (total_bytes bufs) bufs 0 evs in
        match res with
        | Sent => let (w', rs) := run_sends false r in (w ++ w', res :: rs)
        | NotSent => let (w', rs) := run_sends true r in (w ++ w', res :: rs)
        | Sending => (w, [res])
        end
  end.

(** * Receiving *)

(** The largest length recv can be asked for: on Windows it is passed as int32_t (TCPConnectionPool.cpp 721). *)
Definition recv_max (windows : bool) : N := if windows then 2147483647 else 4294967295.

(** Where HandleRead is: in its first loop (the size variable, and bytesToRead) or in its second (size, buffer, dest as an offset,
    bytesRemaining), TCPConnectionPool.cpp 677-756.  Between two messages is the first loop with 4 bytes to read. *)
Inductive phase := InSize (mem : bytes) (to_read : N) | InData (size : N) (buf : bytes) (dest remaining : N).

Record reader := { ph : phase; cur : option bytes; stale : bool; got : list message; open : bool }.
(** [cur] is m_CurrentMessage; [stale] whether errno holds EAGAIN; [got] the messages handed to Process so far. *)
Definition new_reader : reader := {| ph := InSize [0; 0; 0; 0] 4; cur := None; stale := false; got := []; open := true |}.

(** Bytes written into memory at an offset. *)
Definition put (mem : bytes) (off : N) (chunk : bytes) : bytes :=
  firstn (N.to_nat off) mem ++ chunk ++ skipn (N.to_nat off + List.length chunk) mem.

(** The message types each side handles: Client.cpp 508-551, Server.cpp 220-262; Protocol.h 41-66. *)
Definition client_types : list N := [3; 6; 11; 7; 9; 12].
Definition server_types : list N := [1; 2; 4; 5; 8; 10].
Definition nmember (x : N) (l : list N) : bool := existsb (N.eqb x) l.

(** OnReceive, Client.cpp 474-559 and Server.cpp 185-269.  A first packet too short to hold the payload flag is read out of bounds
    (None).  An unknown type disconnects. *)
Definition on_receive (known : list N) (r : reader) (data : bytes) : option reader :=
  let fresh := InSize [0; 0; 0; 0] 4 in
  let dispatch m pl :=
    if nmember (nth 0 m 0) known
    then {| ph := fresh; cur := None; stale := stale r; got := got r ++ [{| body := m; payload := pl |}]; open := open r |}
    else {| ph := fresh; cur := None; stale := stale r; got := got r; open := false |} in
  match cur r with
  | None =>
      match nth_error data 2 with
      | None => None
      | Some flag => if flag =? 0 then Some (dispatch data None)
                     else Some {| ph := fresh; cur := Some data; stale := stale r; got := got r; open := open r |}
      end
  | Some m => Some (dispatch m (Some data))
  end.

Definition with_ph (r : reader) (p : phase) : reader := {| ph := p; cur := cur r; stale := stale r; got := got r; open := open r |}.
Definition close_it (r : reader) : reader := {| ph := ph r; cur := cur r; stale := stale r; got := got r; open := false |}.

(** What recv may do: give n bytes (at least one, at most what was asked for and what has arrived); find nothing yet; find nothing
    while the connection is being closed here; report that the peer has closed (0, errno untouched); fail.  Last: other
    calls of the thread change errno. *)
Inductive revent := Arrive (n : N) | NotYet | Closing | PeerClosed | RecvError | OtherErrno.

(** One recv call of HandleRead and what follows it, TCPConnectionPool.cpp 677-756. *)
Definition recv_step (windows : bool) (known : list N) (r : reader) (stream : bytes) (e : revent) : option (reader * bytes) :=
  if open r then
    match e with
    | Arrive n =>
        let want := match ph r with InSize _ t => t | InData _ _ _ t => t end in
        if recv_max windows <? want then Some (close_it r, stream)
        else
          let k := N.min (N.min (N.max 1 n) want) (blen stream) in
          if k =? 0 then Some (r, stream)
          else
            let chunk := firstn (N.to_nat k) stream in
            let stream' := skipn (N.to_nat k) stream in
            match ph r with
            | InSize mem to_read =>
                let mem' := put mem (4 - to_read) chunk in
                if to_read - k =? 0 then
                  let size := le_value mem' in
                  if size =? 0 then option_map (fun r' => (r', stream')) (on_receive known r [])
                  else Some (with_ph r (InData size (repeat 0 (N.to_nat size)) 0 size), stream')
                else Some (with_ph r (InSize mem' (to_read - k)), stream')
            | InData size buf dest remaining =>
                let buf' := put buf dest chunk in
                if remaining - k =? 0 then option_map (fun r' => (r', stream')) (on_receive known r buf')
                else Some (with_ph r (InData size buf' (dest + k) (remaining - k)), stream')
            end
    | NotYet => Some ({| ph := ph r; cur := cur r; stale := true; got := got r; open := true |}, stream)
    | Closing => Some (close_it r, stream)
    | PeerClosed => if stale r then Some (r, stream) else Some (close_it r, stream)
    | RecvError => Some (close_it r, stream)
    | OtherErrno => Some ({| ph := ph r; cur := cur r; stale := false; got := got r; open := true |}, stream)
    end
  else Some (r, stream).
Fixpoint run_reader (windows : bool) (known : list N) (r : reader) (stream : bytes) (evs : list revent) : option (reader * bytes) :=
  match evs with
  | [] => Some (r, stream)
  | e :: evs' => match recv_step windows known r stream e with
                 | Some (r', stream') => run_reader windows known r' stream' evs'
                 | None => None
                 end
  end.
