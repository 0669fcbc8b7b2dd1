(** Vocabulary for statements about the whole stack: what a schedule feeds to a
    connection, what a client receives. *)
From Verif Require Import Bytes Errors Wire Proto Codec Address Message SpecMessage Client Engine SpecEngine Sink.
Open Scope N_scope.

(** What the stream of connection [a] yields in a schedule, in order. *)
Definition nets (a : baddr) (h : list event) : list item :=
  flat_map (fun e => match e with EvNet b x => if baddr_eqb b a then [x] else [] | _ => [] end) h.
(** The events among the items of a stream: frames of a known type that convert,
    apart from answers to connects. *)
Definition events (l : list item) : list inbound :=
  flat_map (fun x => match x with IFrame mc => match to_inbound mc with Ok InConnected => [] | Ok i => [i] | _ => [] end | _ => [] end) l.
(** The events client [c] has received, in order. *)
Definition gots (c : nat) (l : list obs) : list inbound :=
  flat_map (fun x => match x with OGot c' i => if (c' =? c)%nat then [i] else [] | _ => [] end) l.
(** The requests client [c] has issued, in order. *)
Definition requests (c : nat) (l : list obs) : list outbound :=
  flat_map (fun x => match x with OIssue c' _ o => if (c' =? c)%nat then [o] else [] | _ => [] end) l.

(** A command offered to the stream of a connection: the request it comes from, its
    frame, and what the transport does meanwhile. *)
Record offer := mk_offer { of_cmd : option nat * outbound; of_frame : bytes; of_io : io_plan }.
(** The command connection [a] offers to its stream in event [e]: the next one of its
    queue (src/connection.rs:128-138), if the connection task does not panic on it. *)
Definition next_offer (E : env) (a : baddr) (s : sys) (e : event) : option (option nat * outbound * bytes) :=
  match e with
  | EvWrite b now _ =>
      if baddr_eqb b a then
        match get_conn a (s_conns s) with
        | Some k => match k_e2n k with
                    | x :: _ => match obind (to_cmd now (ci_out x)) (encode (e_oc E)) with Ok w => Some (ci_src x, ci_out x, w) | _ => None end
                    | [] => None
                    end
        | None => None
        end
      else None
  | _ => None
  end.
(** All commands connection [a] offers during a schedule; [io i] is what its
    transport does during the i-th event. *)
Fixpoint offers (E : env) (a : baddr) (io : nat -> io_plan) (i : nat) (s : sys) (h : list event) : list offer :=
  match h with
  | [] => []
  | e :: r =>
      match next_offer E a s e with Some (x, w) => [mk_offer x w (io i)] | None => [] end ++
      match step E s e with Some s1 => offers E a io (S i) s1 r | None => [] end
  end.
(** What became of an offered command: the bytes waiting before it, whether the
    stream took it, whether [send] returned Ok, the bytes the transport has taken in
    all when it returned. *)
Record attempt := mk_attempt { at_cmd : option nat * outbound; at_frame : bytes; at_waiting : N; at_taken : bool; at_ok : bool; at_sent : bytes }.
Fixpoint send_all (k : sink) (l : list offer) : list attempt :=
  match l with
  | [] => []
  | x :: r =>
      match send_frame k (of_io x) (of_frame x) with
      | (k1, taken, ok) => mk_attempt (of_cmd x) (of_frame x) (blen (sk_buf k)) taken ok (sk_sent k1) :: send_all k1 r
      end
  end.
(** The write attempts of connection [a] in a schedule. *)
Definition attempts (E : env) (a : baddr) (io : nat -> io_plan) (h : list event) : list attempt := send_all sink_init (offers E a io 0 sys_init h).
(** All bytes that get onto its wire. *)
Definition bytes_out (w : list attempt) : bytes := last (map at_sent w) [].
Definition wire (E : env) (a : baddr) (io : nat -> io_plan) (h : list event) : bytes := bytes_out (attempts E a io h).
(** The commands among them that the stream has taken. *)
Definition taken_up (w : list attempt) : list (option nat * outbound) := map at_cmd (filter at_taken w).
(** Every attempt succeeds. *)
Definition all_ok (w : list attempt) : Prop := forall x, In x w -> at_ok x = true.
(** Once a write has failed the transport takes no more bytes. *)
Definition fails_for_good (w : list attempt) : Prop :=
  forall w1 x w2 y w3, w = w1 ++ x :: w2 ++ y :: w3 -> at_ok x = false -> at_sent y = at_sent x.
(** The connection [a] writes at times that fit u64. *)
Definition clock_fits (a : baddr) (h : list event) : Prop := forall now ok, In (EvWrite a now ok) h -> now < 2 ^ 64.
(** No write fails. *)
Definition writes_succeed (E : env) (a : baddr) (io : nat -> io_plan) (h : list event) : Prop := all_ok (attempts E a io h) /\ clock_fits a h.

(** The calls made on a client, in the order in which they take their numbers. *)
Definition calls (h : list cl_ev) : list call := flat_map (fun e => match e with Build _ c => [c] | Enqueue _ => [] end) h.
(** The sends among them as commands, numbered in order. *)
Fixpoint sent_as (id : N) (name : bytes) (i : N) (cs : list call) : list outbound :=
  match cs with
  | [] => []
  | CSend d :: r => OSend (SSingle name id i d) :: sent_as id name (i + 1) r
  | CSendBatch ds :: r => OSend (SBatch name id i ds) :: sent_as id name (i + 1) r
  | _ :: r => sent_as id name i r
  end.
(** The sends of client [c] that connection [a] took for writing, in order. *)
Definition sends_written (c : nat) (a : baddr) (l : list obs) : list outbound :=
  flat_map (fun x => match x with OWrite b (Some n) (OSend p) _ => if baddr_eqb b a && in_nat n (issued c l) then [OSend p] else [] | _ => [] end) l.
(** A frame that says what a queued command means (its send time aside). *)
Definition request_of (x : option nat * outbound) (mc : msg_cmd) : Prop := exists now, now < 2 ^ 64 /\ denotes now (snd x) mc.
