(** Model of src/pulsar.rs, src/client_manager.rs, src/connection_manager.rs,
    src/command_resolver.rs and of the connection task of src/connection.rs: one
    engine with any number of clients and connections.

    A schedule is a list of events. Each event is an atomic step of one of the
    actors: the user of the manager, a client, the engine task, a connection
    task, the network. [step] gives the state after the event, [None] when the
    event is not possible. Locks of the engine are taken only by the engine task
    and are not modelled. What the environment decides (dials, authentication,
    writes, time, network input) is part of the events. *)
From Verif Require Import Bytes Errors Wire Proto Codec Address Message Client.
Open Scope N_scope.

(** * src/command_resolver.rs: correlation keys and the waiting requests *)
Definition resolver := list (bytes * nat).
Fixpoint r_find (k : bytes) (r : resolver) : option nat :=
  match r with [] => None | (k', n) :: r' => if bytes_eqb k k' then Some n else r_find k r' end.
Definition r_del (k : bytes) (r : resolver) : resolver := filter (fun p => negb (bytes_eqb k (fst p))) r.
(** 30-38, [put]: returns the senders that are dropped: the one it replaces, or
    the new one if the request has no key. *)
Definition r_put (key : option bytes) (n : nat) (r : resolver) : resolver * list nat :=
  match key with
  | None => (r, [n])
  | Some k => ((k, n) :: r_del k r, match r_find k r with Some m => [m] | None => [] end)
  end.
(** 40-48, [try_resolve]. *)
Definition r_resolve (key : option bytes) (r : resolver) : option (nat * resolver) :=
  match key with
  | None => None
  | Some k => match r_find k r with Some n => Some (n, r_del k r) | None => None end
  end.

(** * State *)
(** Configuration: src/pulsar.rs:14-18; the method name of the authentication
    plugin if there is one (156-158); whether u32 overflow checks are compiled in. *)
Record env := mk_env { e_cfg : config; e_auth : option bytes; e_oc : bool }.

(** A command queued for a connection (src/message.rs:45-56, [Command]): the
    request it comes from ([None]: the engine's own pong), and whether it carries
    a response channel (only connects do, src/pulsar.rs:106-120). *)
Record citem := mk_citem { ci_src : option nat; ci_out : outbound; ci_wait : bool }.
(** A connection (src/connection.rs:22-25, src/connection_manager.rs:12-14): the
    commands queued for it, the events it has queued for the engine (numbered in
    order of arrival), its resolver, whether its task still runs, whether its
    stream has reported an error (then only the end of the stream follows). *)
Record conn := mk_conn {
  k_e2n : list citem; k_n2e : list (nat * inbound); k_res : resolver; k_alive : bool; k_errored : bool }.
Definition conn_init : conn := mk_conn [] [] [] true false.

(** A registered client (src/client_manager.rs:20-25); [rc_h] names its channel pair. *)
Record rclient := mk_rclient { rc_h : nat; rc_id : N; rc_topic : bytes; rc_addr : baddr }.
(** A channel pair between a client and the engine (src/pulsar.rs:408): requests
    on their way to the engine, events on their way to the client, and whether
    the two ends still exist. [ch_use]: registration was confirmed, the client
    exists as far as the user is concerned. *)
Record chan := mk_chan {
  ch_id : N; ch_up : list (nat * outbound); ch_down : list inbound; ch_client : bool; ch_engine : bool; ch_use : bool }.
Definition chan_none : chan := mk_chan 0 [] [] false false false.

(** What the engine waits for in [send_to_connection] (src/pulsar.rs:107-111). *)
Inductive wait := Waiting | Answered (ser : nat) (i : inbound) | Lost.
(** Where the engine task is. *)
Inductive phase :=
| PStart                                             (* 307: first dial *)
| PRun                                               (* 61-93: waiting for the next event *)
| PAuth (id : N) (n : nat) (c : connect_req)         (* 157: waiting for the authentication plugin *)
| PDial (id : N) (n : nat) (c : connect_req)         (* 165, 286: dialling *)
| PConn (a : baddr) (n : nat) (w : wait)             (* 111: waiting for the answer to a connect *)
| PStop.                                             (* the task has ended *)

(** What can be observed, in order. *)
Inductive obs :=
| OIssue (h n : nat) (o : outbound)           (* client h queues its request n *)
| ORefuse (h : nat) (o : outbound)            (* its channel is closed: ChannelTerminated *)
| OTake (n : nat)                             (* the engine takes request n *)
| OAuthed (n : nat) (r : outcome bytes)       (* the plugin's answer for connect n *)
| ODial (a : baddr) (ok : bool)               (* a dial has ended *)
| OForward (n : nat) (a : baddr) (o : outbound)  (* request n is queued for connection a *)
| OPonged (a : baddr)                         (* a pong is queued for connection a *)
| OWrite (a : baddr) (src : option nat) (o : outbound) (ok : bool)  (* connection a writes *)
| OArrive (a : baddr) (ser : nat) (i : inbound)   (* connection a reads event number ser *)
| OHandle (a : baddr) (ser : nat) (i : inbound)   (* the engine takes it *)
| OAnswer (n ser : nat) (i : inbound)         (* request n completes with it *)
| OCancel (n : nat)                           (* request n completes with ChannelTerminated *)
| OGot (h : nat) (i : inbound)                (* client h receives an event *)
| OGone (h : nat)                             (* client h receives ChannelTerminated *)
| OReg (h : nat) (id : N)                     (* the engine registers h *)
| OConfirm (h : nat) | ORegErr (h : nat)      (* results of register *)
| OFault                                      (* an internal lookup fails *)
| OStop.                                      (* the engine ends *)

Record sys := mk_sys {
  s_phase : phase; s_clients : list rclient; s_res : resolver; s_conns : list (baddr * conn);
  s_ch : nat -> chan;
  s_regq : list (nat * N * bytes); s_acks : nat; s_mgr : bool; s_waiting : list nat;
  s_nextid : N; s_minted : list N; s_nh : nat; s_nreq : nat; s_narr : nat;
  s_log : list obs }.
(** src/pulsar.rs:324-333: [run] has spawned the engine task. *)
Definition sys_init : sys := mk_sys PStart [] [] [] (fun _ => chan_none) [] 0 true [] 0 [] 0 0 0 [].

Inductive event :=
(* the user of the manager *)
| EvNewId                                    (* 397-400 *)
| EvRegister (id : N) (topic : bytes)        (* 402-417 *)
| EvConfirm (h : nat)                        (* 419-421 *)
| EvCancelReg (h : nat)                      (* a waiting register call is dropped *)
| EvDropManager
(* a client *)
| EvIssue (h : nat) (o : outbound)           (* src/client.rs:84-106 *)
| EvRecv (h : nat)                           (* src/client.rs:129-131 *)
| EvDropClient (h : nat)
(* the engine task; the order in which it polls clients and connections is in SpecTurn.v *)
| EvStart (ok : bool)
| EvClient (h : nat)
| EvAuth (r : outcome bytes)
| EvDial (ok : bool)
| EvAnswered
| EvConn (a : baddr)
| EvReg
(* a connection task *)
| EvWrite (a : baddr) (now : N) (io : bool)
| EvNet (a : baddr) (x : item).

(** * Record updates *)
Definition with_phase s p := mk_sys p (s_clients s) (s_res s) (s_conns s) (s_ch s) (s_regq s) (s_acks s) (s_mgr s) (s_waiting s) (s_nextid s) (s_minted s) (s_nh s) (s_nreq s) (s_narr s) (s_log s).
Definition with_clients s c := mk_sys (s_phase s) c (s_res s) (s_conns s) (s_ch s) (s_regq s) (s_acks s) (s_mgr s) (s_waiting s) (s_nextid s) (s_minted s) (s_nh s) (s_nreq s) (s_narr s) (s_log s).
Definition with_res s r := mk_sys (s_phase s) (s_clients s) r (s_conns s) (s_ch s) (s_regq s) (s_acks s) (s_mgr s) (s_waiting s) (s_nextid s) (s_minted s) (s_nh s) (s_nreq s) (s_narr s) (s_log s).
Definition with_conns s c := mk_sys (s_phase s) (s_clients s) (s_res s) c (s_ch s) (s_regq s) (s_acks s) (s_mgr s) (s_waiting s) (s_nextid s) (s_minted s) (s_nh s) (s_nreq s) (s_narr s) (s_log s).
Definition with_ch s f := mk_sys (s_phase s) (s_clients s) (s_res s) (s_conns s) f (s_regq s) (s_acks s) (s_mgr s) (s_waiting s) (s_nextid s) (s_minted s) (s_nh s) (s_nreq s) (s_narr s) (s_log s).
Definition with_regs s q acks mgr wt := mk_sys (s_phase s) (s_clients s) (s_res s) (s_conns s) (s_ch s) q acks mgr wt (s_nextid s) (s_minted s) (s_nh s) (s_nreq s) (s_narr s) (s_log s).
Definition with_ids s nid minted nh := mk_sys (s_phase s) (s_clients s) (s_res s) (s_conns s) (s_ch s) (s_regq s) (s_acks s) (s_mgr s) (s_waiting s) nid minted nh (s_nreq s) (s_narr s) (s_log s).
Definition with_counts s nreq narr := mk_sys (s_phase s) (s_clients s) (s_res s) (s_conns s) (s_ch s) (s_regq s) (s_acks s) (s_mgr s) (s_waiting s) (s_nextid s) (s_minted s) (s_nh s) nreq narr (s_log s).
Definition say s (l : list obs) := mk_sys (s_phase s) (s_clients s) (s_res s) (s_conns s) (s_ch s) (s_regq s) (s_acks s) (s_mgr s) (s_waiting s) (s_nextid s) (s_minted s) (s_nh s) (s_nreq s) (s_narr s) (s_log s ++ l).

Definition set_ch (f : nat -> chan) (h : nat) (c : chan) : nat -> chan := fun x => if (x =? h)%nat then c else f x.
Definition upd_ch (s : sys) (h : nat) (g : chan -> chan) : sys := with_ch s (set_ch (s_ch s) h (g (s_ch s h))).
Definition ch_push_up (x : nat * outbound) (c : chan) := mk_chan (ch_id c) (ch_up c ++ [x]) (ch_down c) (ch_client c) (ch_engine c) (ch_use c).
Definition ch_set_up (q : list (nat * outbound)) (c : chan) := mk_chan (ch_id c) q (ch_down c) (ch_client c) (ch_engine c) (ch_use c).
Definition ch_push_down (i : inbound) (c : chan) := mk_chan (ch_id c) (ch_up c) (ch_down c ++ [i]) (ch_client c) (ch_engine c) (ch_use c).
Definition ch_set_down (q : list inbound) (c : chan) := mk_chan (ch_id c) (ch_up c) q (ch_client c) (ch_engine c) (ch_use c).
Definition ch_drop_client (c : chan) := mk_chan (ch_id c) (ch_up c) (ch_down c) false (ch_engine c) false.
Definition ch_drop_engine (c : chan) := mk_chan (ch_id c) (ch_up c) (ch_down c) (ch_client c) false (ch_use c).
Definition ch_confirm (c : chan) := mk_chan (ch_id c) (ch_up c) (ch_down c) (ch_client c) (ch_engine c) true.

(** src/connection_manager.rs:62-67, [get_connection]; 54-60, [add_connection]
    ([HashMap::insert]). *)
Fixpoint get_conn (a : baddr) (l : list (baddr * conn)) : option conn :=
  match l with [] => None | (b, k) :: r => if baddr_eqb a b then Some k else get_conn a r end.
Fixpoint set_conn (a : baddr) (k : conn) (l : list (baddr * conn)) : list (baddr * conn) :=
  match l with [] => [(a, k)] | (b, k') :: r => if baddr_eqb a b then (a, k) :: r else (b, k') :: set_conn a k r end.
Definition put_conn (s : sys) (a : baddr) (k : conn) : sys := with_conns s (set_conn a k (s_conns s)).

(** * The engine ends
    Dropping [Pulsar] drops the resolver's senders (those requests complete with
    ChannelTerminated), the engine's ends of the clients' channels, of the
    registration channel and of the connections. A queue is freed only when both
    of its ends are gone: requests queued by a client that still exists stay
    pending (async_channel). *)
Definition asks (o : outbound) : bool := match resp_of o with Some _ => true | None => false end.
Definition queued_requests (c : chan) : list nat := map fst (filter (fun x => asks (snd x)) (ch_up c)).
Definition cancel_all (l : list nat) : list obs := map OCancel l.
Fixpoint drop_engine_ends (hs : list nat) (s : sys) : sys :=
  match hs with
  | [] => s
  | h :: r =>
      let c := s_ch s h in
      let s1 := upd_ch s h ch_drop_engine in
      drop_engine_ends r (if ch_client c then s1 else say s1 (cancel_all (queued_requests c)))
  end.
Definition regq_handles (s : sys) : list nat := map (fun x => fst (fst x)) (s_regq s).
Definition stop (s : sys) : sys :=
  let s1 := say (with_phase s PStop) (OStop :: cancel_all (map snd (s_res s))) in
  let s2 := drop_engine_ends (map rc_h (s_clients s)) (with_res s1 []) in
  if s_mgr s then s2 else drop_engine_ends (regq_handles s) s2.
Definition fault (s : sys) : sys := stop (say s [OFault]).

(** * src/client_manager.rs *)
(** 148-150, [get_client]. *)
Fixpoint get_client (id : N) (l : list rclient) : option rclient :=
  match l with [] => None | c :: r => if rc_id c =? id then Some c else get_client id r end.
(** 140-146, [move_client_to_broker]. *)
Definition move_client (id : N) (a : baddr) (l : list rclient) : list rclient :=
  map (fun c => if rc_id c =? id then mk_rclient (rc_h c) (rc_id c) (rc_topic c) a else c) l.
(** 104-114: the clients an event is sent to. *)
Definition addressed (a : baddr) (i : inbound) (c : rclient) : bool :=
  baddr_eqb (rc_addr c) a && match target_id i with Some id => rc_id c =? id | None => true end.
(** 116-120: sends to dropped clients fail and are ignored. *)
Fixpoint push_down (i : inbound) (hs : list nat) (s : sys) : sys :=
  match hs with
  | [] => s
  | h :: r => push_down i r (if ch_client (s_ch s h) then upd_ch s h (ch_push_down i) else s)
  end.
(** 93-123, [send]. *)
Definition manager_send (s : sys) (a : baddr) (ser : nat) (i : inbound) : sys :=
  match r_resolve (ikey i) (s_res s) with
  | Some (n, r) => say (with_res s r) [OAnswer n ser i]
  | None => push_down i (map rc_h (filter (addressed a i) (s_clients s))) s
  end.

(** * src/pulsar.rs *)
(** [connection.send(..).await?] (109, 119, 216): fails when the connection's task
    has ended, and the error ends the engine. [k] continues. *)
Definition send_conn (s : sys) (a : baddr) (x : citem) (ok : sys -> sys) : sys :=
  match get_conn a (s_conns s) with
  | None => fault s                                                  (* 101-103, 35 *)
  | Some k =>
      if k_alive k then
        ok (put_conn s a (mk_conn (k_e2n k ++ [x]) (k_n2e k) (k_res k) (k_alive k) (k_errored k)))
      else stop s
  end.
(** 179-188 and 95-124: the command goes to the client's current connection; after
    a connect the engine waits for its answer. *)
Definition forward (s : sys) (id : N) (n : nat) (o : outbound) : sys :=
  match get_client id (s_clients s) with
  | None => fault s                                                  (* 182-183 *)
  | Some c =>
      let a := rc_addr c in
      let waits := match o with OConnect _ => true | _ => false end in
      send_conn s a (mk_citem (Some n) o waits)
        (fun s1 => let s2 := say s1 [OForward n a o] in with_phase s2 (if waits then PConn a n Waiting else PRun))
  end.
(** 163-174: the connection exists; move the client if the address is not the
    configured one, then forward. *)
Definition connected_to (E : env) (s : sys) (id : N) (n : nat) (c : connect_req) : sys :=
  let a := match cn_addr c with Some a => a | None => broker_address (e_cfg E) end in
  let s1 := if baddr_eqb a (broker_address (e_cfg E)) then s else with_clients s (move_client id a (s_clients s)) in
  forward s1 id n (OConnect c).
(** 165 and 280-284: dial unless there is a connection for the address. *)
Definition dial_or_go (E : env) (s : sys) (id : N) (n : nat) (c : connect_req) : sys :=
  let a := match cn_addr c with Some a => a | None => broker_address (e_cfg E) end in
  match get_conn a (s_conns s) with
  | Some _ => connected_to E s id n c
  | None => with_phase s (PDial id n c)
  end.
(** 126-178, [handle_client_outbound]. *)
Definition handle_outbound (E : env) (s : sys) (id : N) (n : nat) (o : outbound) : sys :=
  match o with
  | OConnect c =>
      let c1 := mk_connect (cn_auth_data c) (cn_auth_method c) (Some (fill_address (e_cfg E) (cn_addr c))) in
      match e_auth E with
      | Some _ => with_phase s (PAuth id n c1)
      | None => dial_or_go E s id n c1
      end
  | _ => forward s id n o
  end.
(** 204-211: the proxy flag of a lookup answer is cleared when the broker named is
    the one already connected to. *)
Definition fix_lookup (a : baddr) (i : inbound) : inbound :=
  match i with
  | InLookup r => InLookup (mk_lookup (lr_rid r) (lr_url r) (lr_url_tls r) (lr_type r) (lr_auth r)
                    (lr_proxy r && negb (bytes_eqb (lr_url r) (addr_string a))))
  | _ => i
  end.
(** 197-226, [handle_connection_inbound]. *)
Definition handle_inbound (s : sys) (a : baddr) (ser : nat) (i : inbound) : sys :=
  match i with
  | InPing => send_conn s a (mk_citem None OPong false) (fun s1 => say s1 [OPonged a])
  | _ => manager_send s a ser (fix_lookup a i)
  end.

(** The requests the client API makes (src/client.rs): no ping, pong or
    authentication response; connects without address or with a proxy and no url,
    without authentication fields; the client's own id. (Client.build only makes
    such requests: EngineFacts.build_is_api.) *)
Definition api_request (id : N) (o : outbound) : bool :=
  match o with
  | OPing | OPong | OAuth _ _ => false
  | OConnect c =>
      match cn_auth_data c, cn_auth_method c, cn_addr c with
      | None, None, None => true
      | None, None, Some (Proxy [] _) => true
      | _, _, _ => false
      end
  | OSend s => s_pid s =? id
  | OAck acks => match acks with [a] => ak_cid a =? id | _ => false end
  | OLookup _ _ => true
  | OSubscribe _ _ cid _ _ => cid =? id
  | OFlow cid _ => cid =? id
  | OProducer _ pid _ _ => pid =? id
  end.

(** * Connection tasks *)
(** The engine's response channel of connect [n] gets an answer, or is dropped. *)
Definition wake (s : sys) (n : nat) (w : wait) : sys :=
  match s_phase s with
  | PConn a m Waiting => if (m =? n)%nat then with_phase s (PConn a m w) else s
  | _ => s
  end.
Fixpoint wake_all (ns : list nat) (w : wait) (s : sys) : sys :=
  match ns with [] => s | n :: r => wake_all r w (wake s n w) end.
(** The task ends: its resolver and its ends of the channels are dropped. Commands
    it has not taken stay in their queue, with their response channels. *)
Definition conn_end (s : sys) (a : baddr) (k : conn) : sys :=
  wake_all (map snd (k_res k)) Lost (put_conn s a (mk_conn (k_e2n k) (k_n2e k) [] false (k_errored k))).
(** src/connection.rs:128-147: take one command, note its response channel, write
    it. The conversion may panic; a failed write is ignored. *)
Definition conn_write (E : env) (s : sys) (a : baddr) (k : conn) (x : citem) (q : list citem) (now : N) (io : bool) : sys :=
  let (res, dropped) :=
    if ci_wait x then match ci_src x with Some n => r_put (okey (ci_out x)) n (k_res k) | None => (k_res k, []) end else (k_res k, []) in
  let k1 := mk_conn q (k_n2e k) res (k_alive k) (k_errored k) in
  let s1 := wake_all dropped Lost (put_conn s a k1) in
  match obind (to_cmd now (ci_out x)) (encode (e_oc E)) with
  | Panic => conn_end s1 a k1
  | Ok _ => say s1 [OWrite a (ci_src x) (ci_out x) io]
  | Err _ => say s1 [OWrite a (ci_src x) (ci_out x) false]
  end.
(** src/connection.rs:148-191: one answer of the stream. *)
Definition conn_net (s : sys) (a : baddr) (k : conn) (x : item) : sys :=
  match x with
  | IEnd => conn_end s a k                                            (* 150-153, 173-176 *)
  | IPanic => conn_end s a k
  | IErr _ => put_conn s a (mk_conn (k_e2n k) (k_n2e k) (k_res k) (k_alive k) true)   (* 162-165, 177-179 *)
  | IFrame mc =>
      match to_inbound mc with
      | Panic => conn_end s a k
      | Err _ => s                                                    (* 156-160 *)
      | Ok i =>
          let ser := s_narr s in
          let s1 := say (with_counts s (s_nreq s) (S ser)) [OArrive a ser i] in
          match r_resolve (ikey i) (k_res k) with
          | Some (n, res) => wake (put_conn s1 a (mk_conn (k_e2n k) (k_n2e k) res (k_alive k) (k_errored k))) n (Answered ser i)
          | None =>
              match s_phase s with
              | PStop => conn_end s1 a k                              (* 186-188 *)
              | _ => put_conn s1 a (mk_conn (k_e2n k) (k_n2e k ++ [(ser, i)]) (k_res k) (k_alive k) (k_errored k))
              end
          end
      end
  end.

(** * Steps *)
Fixpoint remove_n (x : N) (l : list N) : option (list N) :=
  match l with
  | [] => None
  | y :: r => if x =? y then Some r else match remove_n x r with Some r' => Some (y :: r') | None => None end
  end.
Definition remove_h (h : nat) (l : list nat) : list nat := filter (fun x => negb (x =? h)%nat) l.
Definition is_in (h : nat) (l : list nat) : bool := existsb (Nat.eqb h) l.

Definition step (E : env) (s : sys) (e : event) : option sys :=
  match e with
  | EvNewId =>
      if s_mgr s then Some (with_ids s (bump (s_nextid s)) (s_minted s ++ [s_nextid s]) (s_nh s)) else None
  | EvRegister id topic =>
      if s_mgr s then
        match remove_n id (s_minted s) with
        | None => None
        | Some minted =>
            let h := s_nh s in
            let s1 := with_ids s (s_nextid s) minted (S h) in
            match s_phase s with
            | PStop => Some (say s1 [ORegErr h])
            | _ => Some (with_regs (upd_ch s1 h (fun _ => mk_chan id [] [] true true false))
                          (s_regq s ++ [(h, id, topic)]) (s_acks s) (s_mgr s) (s_waiting s ++ [h]))
            end
        end
      else None
  | EvConfirm h =>
      if is_in h (s_waiting s) then
        match s_acks s with
        | S m => Some (say (upd_ch (with_regs s (s_regq s) m (s_mgr s) (remove_h h (s_waiting s))) h ch_confirm) [OConfirm h])
        | O => match s_phase s with
               | PStop => Some (say (upd_ch (with_regs s (s_regq s) O (s_mgr s) (remove_h h (s_waiting s))) h ch_drop_client) [ORegErr h])
               | _ => None
               end
        end
      else None
  | EvCancelReg h =>
      if is_in h (s_waiting s) then
        Some (upd_ch (with_regs s (s_regq s) (s_acks s) (s_mgr s) (remove_h h (s_waiting s))) h ch_drop_client)
      else None
  | EvDropManager =>
      (* register borrows the manager *)
      if s_mgr s then
        match s_waiting s with
        | _ :: _ => None
        | [] =>
            let s1 := with_regs s (s_regq s) (s_acks s) false [] in
            Some (match s_phase s with PStop => drop_engine_ends (regq_handles s) s1 | _ => s1 end)
        end
      else None
  | EvIssue h o =>
      let c := s_ch s h in
      if ch_client c && ch_use c && api_request (ch_id c) o then
        if ch_engine c then
          let n := s_nreq s in
          Some (say (upd_ch (with_counts s (S n) (s_narr s)) h (ch_push_up (n, o))) [OIssue h n o])
        else Some (say s [ORefuse h o])
      else None
  | EvRecv h =>
      let c := s_ch s h in
      if ch_client c && ch_use c then
        match ch_down c with
        | i :: q => Some (say (upd_ch s h (ch_set_down q)) [OGot h i])
        | [] => if ch_engine c then None else Some (say s [OGone h])
        end
      else None
  | EvDropClient h =>
      let c := s_ch s h in
      if ch_client c && ch_use c then
        let s1 := upd_ch s h ch_drop_client in
        Some (if ch_engine c then s1 else say s1 (cancel_all (queued_requests c)))
      else None
  | EvStart ok =>
      match s_phase s with
      | PStart =>
          let a := broker_address (e_cfg E) in
          let s1 := say s [ODial a ok] in
          Some (if ok then with_phase (put_conn s1 a conn_init) PRun else stop s1)
      | _ => None
      end
  | EvClient h =>
      match s_phase s with
      | PRun =>
          match s_conns s with [] => match s_clients s with [] => None | _ => Some (fault s) end | _ =>   (* 88-91 *)
          match find (fun c => (rc_h c =? h)%nat) (s_clients s) with
          | None => None
          | Some c =>
              match ch_up (s_ch s h) with
              | (n, o) :: q =>
                  let s1 := say (upd_ch s h (ch_set_up q)) [OTake n] in
                  let (res, dropped) := if asks o then r_put (okey o) n (s_res s) else (s_res s, []) in
                  Some (handle_outbound E (say (with_res s1 res) (cancel_all dropped)) (rc_id c) n o)
              | [] => if ch_client (s_ch s h) then None else Some (stop s)
              end
          end
          end
      | _ => None
      end
  | EvAuth r =>
      match s_phase s with
      | PAuth id n c =>
          let s1 := say s [OAuthed n r] in
          match r with
          | Ok data => Some (dial_or_go E s1 id n (mk_connect (Some data) (e_auth E) (cn_addr c)))
          | _ => Some (stop s1)
          end
      | _ => None
      end
  | EvDial ok =>
      match s_phase s with
      | PDial id n c =>
          let a := match cn_addr c with Some a => a | None => broker_address (e_cfg E) end in
          let s1 := say s [ODial a ok] in
          Some (if ok then connected_to E (put_conn s1 a conn_init) id n c else stop s1)
      | _ => None
      end
  | EvAnswered =>
      match s_phase s with
      | PConn a n (Answered ser i) => Some (manager_send (with_phase (say s [OHandle a ser i]) PRun) a ser i)
      | PConn a n Lost => Some (stop s)
      | _ => None
      end
  | EvConn a =>
      match s_phase s, s_clients s with
      | PRun, _ :: _ =>
          match get_conn a (s_conns s) with
          | None => None
          | Some k =>
              match k_n2e k with
              | (ser, i) :: q =>
                  Some (handle_inbound (say (put_conn s a (mk_conn (k_e2n k) q (k_res k) (k_alive k) (k_errored k))) [OHandle a ser i]) a ser i)
              | [] => if k_alive k then None else Some (stop s)
              end
          end
      | _, _ => None
      end
  | EvReg =>
      match s_phase s with
      | PRun =>
          match s_regq s with
          | (h, id, topic) :: q =>
              let s1 := with_regs s q (s_acks s) (s_mgr s) (s_waiting s) in
              let s2 := say (with_clients s1 (s_clients s ++ [mk_rclient h id topic (broker_address (e_cfg E))])) [OReg h id] in
              Some (if s_mgr s then with_regs s2 q (S (s_acks s)) (s_mgr s) (s_waiting s) else stop s2)     (* 250-252 *)
          | [] =>
              if s_mgr s then None
              else match s_clients s with [] => Some (stop s) | _ => Some s end                             (* 85, 271-273 *)
          end
      | _ => None
      end
  | EvWrite a now io =>
      match get_conn a (s_conns s) with
      | Some k =>
          if k_alive k then
            match k_e2n k with
            | x :: q => Some (conn_write E s a k x q now io)
            | [] => match s_phase s with PStop => Some (conn_end s a k) | _ => None end                     (* 140-145 *)
            end
          else None
      | None => None
      end
  | EvNet a x =>
      match get_conn a (s_conns s) with
      | Some k => if k_alive k && (negb (k_errored k) || match x with IEnd => true | _ => false end) then Some (conn_net s a k x) else None
      | None => None
      end
  end.
Fixpoint run (E : env) (s : sys) (h : list event) : option sys :=
  match h with
  | [] => Some s
  | e :: r => match step E s e with Some s1 => run E s1 r | None => None end
  end.
Definition reach (E : env) (h : list event) (s : sys) : Prop := run E sys_init h = Some s.
