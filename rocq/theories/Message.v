(** Model of src/message.rs: requests, events, and their conversions to and from
    protobuf commands.

    Generated protobuf structs are dynamic messages (Proto.v). Conventions:
    fields are written in field-number order, as the generated writers do; strings are UTF-8 byte lists;
    [Utc::now().timestamp_millis() as u64] is the argument [now];
    a [MessageIdData] is a dynamic message of type [M_MessageIdData]. *)
From Verif Require Import Bytes Errors Wire Proto Codec Address.
Open Scope N_scope.

(** [as u32], [as i32] (wrapping casts). *)
Definition as_u32 (n : N) : N := n mod u32_max.
Definition as_i32 (n : N) : Z :=
  let k := n mod u32_max in if k <? 2147483648 then Z.of_N k else (Z.of_N k - 4294967296)%Z.

Definition uint (n : N) : pval := PInt (Z.of_N n).

(** * Requests *)
(** src/message.rs:325-330, [struct Connect]. *)
Record connect_req := mk_connect {
  cn_auth_data : option bytes; cn_auth_method : option bytes; cn_addr : option baddr }.
(** src/message.rs:393-407, [enum Send]. *)
Inductive send_req :=
| SSingle (name : bytes) (pid seq : N) (data : bytes)
| SBatch (name : bytes) (pid seq : N) (datas : list bytes).
(** src/message.rs:548-553, [struct Ack]. *)
Record ack_req := mk_ack { ak_cid : N; ak_mid : message; ak_rid : N }.
(** src/message.rs:932-938, [enum SubType]. *)
Inductive sub_type := Exclusive | Shared | Failover | KeyShared.

(** src/message.rs:67-79, [enum Outbound] with the structs LookupTopic (734-738),
    Subscribe (940-947), AuthChallenge (838-842), Flow (901-905), Producer (1015-1021). *)
Inductive outbound :=
| OPong
| OPing
| OConnect (c : connect_req)
| OSend (s : send_req)
| OAck (acks : list ack_req)
| OLookup (rid : N) (topic : bytes)
| OSubscribe (topic subscription : bytes) (cid rid : N) (st : sub_type)
| OAuth (method data : bytes)
| OFlow (cid permits : N)
| OProducer (topic : bytes) (pid rid : N) (name : option bytes).

(** src/message.rs:416-442, accessors of [Send]. *)
Definition s_name (s : send_req) : bytes := match s with SSingle n _ _ _ => n | SBatch n _ _ _ => n end.
Definition s_pid (s : send_req) : N := match s with SSingle _ p _ _ => p | SBatch _ p _ _ => p end.
Definition s_seq (s : send_req) : N := match s with SSingle _ _ q _ => q | SBatch _ _ q _ => q end.
Definition s_count (s : send_req) : N :=
  match s with SSingle _ _ _ _ => 1 | SBatch _ _ _ ds => as_u32 (N.of_nat (length ds)) end.

(** src/message.rs:450-457: one entry of a batch. *)
Definition batch_entry (data : bytes) : outcome bytes :=
  let metadata := [(3, PInt (as_i32 (blen data)))] in
  let metadata_size := compute_size metadata mod u32_max in
  obind (write_unwrap M_SingleMessageMetadata metadata) (fun mb =>
  Ok (put_u32 metadata_size ++ mb ++ data)).
Fixpoint batch_entries (ds : list bytes) : outcome bytes :=
  match ds with
  | [] => Ok []
  | d :: r => obind (batch_entry d) (fun e => omap (app e) (batch_entries r))
  end.
(** src/message.rs:444-463, [Send::payload]. *)
Definition s_payload (s : send_req) : outcome bytes :=
  match s with SSingle _ _ _ d => Ok d | SBatch _ _ _ ds => batch_entries ds end.

(** A base command with its type and one sub-message. *)
Definition base (ty : Z) (field : N) (sub : message) : message := [(1, PInt ty); (field, PMsg sub)].

(** src/message.rs:338-363, [From<Connect> for MessageCommand]. *)
Definition connect_sub (c : connect_req) : message :=
  [(1, PBytes (str "2.0.0-incubating"))]
  ++ match cn_auth_data c with Some d => [(3, PBytes d)] | None => [] end
  ++ [(4, PInt 21)]
  ++ match cn_auth_data c with
     | Some _ => [(5, PBytes (match cn_auth_method c with Some m => m | None => str "none" end))]
     | None => [] end
  ++ match cn_addr c with
     | Some a => match get_proxy a with Some p => [(6, PBytes p)] | None => [] end
     | None => [] end.

(** src/message.rs:471-506, [From<Send> for MessageCommand]. *)
Definition send_cmd (now : N) (s : send_req) : outcome msg_cmd :=
  obind (s_payload s) (fun data =>
  Ok (mk_cmd (base 6 6 [(1, uint (s_pid s)); (2, uint (s_seq s)); (3, PInt (as_i32 (s_count s)))])
       (Some (mk_payload
          [(1, PBytes (s_name s)); (2, uint (s_seq s)); (3, uint now);
           (11, PInt (as_i32 (s_count s))); (12, uint now)] data)))).

(** src/message.rs:567-591, [From<Vec<Ack>> for MessageCommand]: panics on an
    empty list ([first().unwrap()]). *)
Definition ack_cmd (acks : list ack_req) : outcome msg_cmd :=
  match acks with
  | [] => Panic
  | first :: _ =>
      let ty := match acks with _ :: _ :: _ => 1%Z | _ => 0%Z end in
      Ok (mk_cmd (base 10 10
           ([(1, uint (ak_cid first)); (2, PInt ty)]
            ++ map (fun a => (3, PMsg (ak_mid a))) acks
            ++ [(8, uint (ak_rid first))])) None)
  end.

(** src/message.rs:962-967. *)
Definition sub_type_z (st : sub_type) : Z :=
  match st with Exclusive => 0 | Shared => 1 | Failover => 2 | KeyShared => 3 end%Z.

(** src/message.rs:114-129, [From<Outbound> for MessageCommand]. *)
Definition to_cmd (now : N) (o : outbound) : outcome msg_cmd :=
  match o with
  | OPing => Ok (mk_cmd (base 18 18 []) None)                       (* 252-263 *)
  | OPong => Ok (mk_cmd (base 19 19 []) None)                       (* 298-309 *)
  | OConnect c => Ok (mk_cmd (base 2 2 (connect_sub c)) None)
  | OSend s => send_cmd now s
  | OAck acks => ack_cmd acks
  | OLookup rid topic =>                                            (* 746-761 *)
      Ok (mk_cmd (base 23 23 [(1, PBytes topic); (2, uint rid)]) None)
  | OSubscribe topic subscription cid rid st =>                     (* 955-978 *)
      Ok (mk_cmd (base 4 4 [(1, PBytes topic); (2, PBytes subscription);
        (3, PInt (sub_type_z st)); (4, uint cid); (5, uint rid)]) None)
  | OAuth method data =>                                            (* 850-870: response sub-message, challenge type *)
      Ok (mk_cmd (base 36 37 [(2, PMsg [(1, PBytes method); (2, PBytes data)])]) None)
  | OFlow cid permits =>                                            (* 913-928 *)
      Ok (mk_cmd (base 11 11 [(1, uint cid); (2, uint permits)]) None)
  | OProducer topic pid rid name =>                                 (* 1029-1048 *)
      Ok (mk_cmd (base 5 5 ([(1, PBytes topic); (2, uint pid); (3, uint rid)]
        ++ match name with Some n => [(4, PBytes n)] | None => [] end)) None)
  end.

(** src/message.rs:98-112, [ResolverKey for Outbound]. *)
Definition okey (o : outbound) : option bytes :=
  match o with
  | OConnect _ => Some (str "CONNECT")
  | OSend s => Some (str "SEND:" ++ dec (s_seq s))
  | OAck _ => Some (str "ACK")
  | OLookup _ _ => Some (str "LOOKUP")
  | OSubscribe _ _ _ _ _ => Some (str "SUBSCRIBE")
  | OAuth _ _ => Some (str "AUTH_CHALLENGE")
  | OFlow _ _ => Some (str "FLOW")
  | OProducer _ _ _ _ => Some (str "PRODUCER")
  | OPing | OPong => None
  end.

(** * Events *)
(** src/message.rs:409-413, [BatchedPayload]. *)
Record batched := mk_batched { bp_meta : message; bp_data : bytes }.
(** src/message.rs:629-649, [SingleMessage], [BatchMessage], [Message]. *)
Inductive delivery :=
| DSingle (cid : N) (mid : message) (data : bytes)
| DBatch (cid : N) (mid : message) (parts : list batched).
(** src/message.rs:765-770. *)
Inductive lookup_type := LConnect | LRedirect | LFailed.
(** src/message.rs:772-780, [LookupTopicResponse]. *)
Record lookup_resp := mk_lookup {
  lr_rid : N; lr_url : bytes; lr_url_tls : bytes; lr_type : lookup_type; lr_auth : bool; lr_proxy : bool }.

(** src/message.rs:131-143, [enum Inbound] with SendReceipt (510-515),
    AckReciept (595-599), Success (982-985), ProducerSuccess (1051-1055). *)
Inductive inbound :=
| InPing
| InPong
| InConnected
| InReceipt (pid seq : N) (mid : message)
| InAckReceipt (cid rid : N)
| InMessage (d : delivery)
| InLookup (r : lookup_resp)
| InAuthChallenge
| InSuccess (rid : N)
| InProducerSuccess (rid : N) (name : bytes).

(** src/message.rs:651-658, [Message::consumer_id]. *)
Definition d_cid (d : delivery) : N := match d with DSingle c _ _ => c | DBatch c _ _ => c end.

(** src/message.rs:163-170, [Inbound::try_consumer_or_producer_id]. *)
Definition target_id (i : inbound) : option N :=
  match i with
  | InReceipt pid _ _ => Some pid
  | InAckReceipt cid _ => Some cid
  | InMessage d => Some (d_cid d)
  | _ => None
  end.

(** src/message.rs:173-189, [ResolverKey for Inbound]. *)
Definition ikey (i : inbound) : option bytes :=
  match i with
  | InConnected => Some (str "CONNECT")
  | InReceipt _ seq _ => Some (str "SEND:" ++ dec seq)
  | InAckReceipt _ _ => Some (str "ACK")
  | InMessage _ => Some (str "MESSAGE")
  | InLookup _ => Some (str "LOOKUP")
  | InAuthChallenge => Some (str "AUTH_CHALLENGE")
  | InSuccess _ => Some (str "SUBSCRIBE")
  | InProducerSuccess _ _ => Some (str "PRODUCER")
  | InPing | InPong => None
  end.

(** src/message.rs:669-687, [batched_payload]; [None] = any nom error
    (incomplete input, bad metadata, negative payload size). *)
Definition batched_payload (i : bytes) : option (batched * bytes) :=
  match get_be 4 i with
  | None => None
  | Some (metadata_size, i1) =>
      match take_n metadata_size i1 with
      | None => None
      | Some (mb, i2) =>
          match parse_msg M_SingleMessageMetadata mb with
          | None => None
          | Some md =>
              let size := z_or 0%Z (get_z 3 md) in
              if (0 <=? size)%Z then
                match take_n (Z.to_N size) i2 with
                | None => None
                | Some (data, i3) => Some (mk_batched md data, i3)
                end
              else None
          end
      end
  end.
(** nom's [multi::count] (src/message.rs:694). *)
Fixpoint count_batched (n : nat) (i : bytes) : option (list batched * bytes) :=
  match n with
  | O => Some ([], i)
  | S k => match batched_payload i with
           | None => None
           | Some (x, i1) => match count_batched k i1 with
                             | None => None
                             | Some (xs, i2) => Some (x :: xs, i2)
                             end
           end
  end.
(** src/message.rs:689-697, [parse_batched_message]. *)
Definition parse_batched_message (count : N) (data : bytes) : outcome (list batched) :=
  match count_batched (N.to_nat count) data with
  | Some (l, _) => Ok l
  | None => Err DecodeFailed
  end.

(** [MessageMetadata::num_messages_in_batch()]: default 1. *)
Definition num_in_batch (md : message) : Z := z_or 1%Z (get_z 11 md).

(** src/message.rs:699-730, [TryFrom<MessageCommand> for Message] (type already
    checked). An absent [message] sub-message reads as the default instance,
    whose [message_id] is unset. *)
Definition to_delivery (mc : msg_cmd) : outcome delivery :=
  let m := m_or_empty (get_m 9 (mc_cmd mc)) in
  match get_m 2 m, mc_payload mc with
  | Some mid, Some p =>
      let n := num_in_batch (pl_meta p) in
      if (1 <? n)%Z then
        omap (fun l => DBatch (get_u 1 m) mid l) (parse_batched_message (Z.to_N n) (pl_data p))
      else Ok (DSingle (get_u 1 m) mid (pl_data p))
  | _, _ => Panic
  end.

(** [BaseCommand::type_()]. *)
Definition cmd_type (fs : message) : Z := get_e E_BaseCommand_Type 1 fs.

(** src/message.rs:191-229, [TryFrom<MessageCommand> for Inbound], with the
    conversions it calls; an absent mandatory sub-message panics ([unwrap]). *)
Definition to_inbound (mc : msg_cmd) : outcome inbound :=
  let c := mc_cmd mc in
  match cmd_type c with
  | 18 => Ok InPing
  | 19 => Ok InPong
  | 3 => Ok InConnected                                            (* 381-390 *)
  | 7 =>                                                           (* 528-544 *)
      match get_m 7 c with
      | None => Panic
      | Some r => match get_m 3 r with
                  | None => Panic
                  | Some mid => Ok (InReceipt (get_u 1 r) (get_u 2 r) mid)
                  end
      end
  | 38 =>                                                          (* 612-627 *)
      match get_m 38 c with
      | None => Panic
      | Some r => Ok (InAckReceipt (get_u 1 r) (get_u 6 r))
      end
  | 9 => omap InMessage (to_delivery mc)
  | 24 =>                                                          (* 803-834 *)
      match get_m 24 c with
      | None => Panic
      | Some r =>
          Ok (InLookup (mk_lookup (get_u 4 r) (b_or [] (get_b 1 r)) (b_or [] (get_b 2 r))
                (match get_e E_CommandLookupTopicResponse_LookupType 3 r with
                 | 1 => LConnect | 2 => LFailed | _ => LRedirect end%Z)
                (negb (get_u 5 r =? 0)%N) (negb (get_u 8 r =? 0)%N)))
      end
  | 36 => Ok InAuthChallenge                                       (* 888-897 *)
  | 13 =>                                                          (* 999-1012 *)
      match get_m 13 c with
      | None => Panic
      | Some r => Ok (InSuccess (get_u 1 r))
      end
  | 17 =>                                                          (* 1069-1083 *)
      match get_m 17 c with
      | None => Panic
      | Some r => Ok (InProducerSuccess (get_u 1 r) (b_or [] (get_b 2 r)))
      end
  | _ => Err UnsupportedCommand                                    (* 223-227, ERROR included *)
  end%Z.

(** The answer a request future is converted to (the [Response] type argument of
    [send_command_and_resolve] in src/client.rs), and the [TryFrom<Inbound>]
    implementations it uses. *)
Inductive resp_kind := RConnected | RReceipt | RAckReceipt | RLookup | RSuccess | RProducerSuccess.
Definition is_resp (k : resp_kind) (i : inbound) : bool :=
  match k, i with
  | RConnected, InConnected => true
  | RReceipt, InReceipt _ _ _ => true
  | RAckReceipt, InAckReceipt _ _ => true
  | RLookup, InLookup _ => true
  | RSuccess, InSuccess _ => true
  | RProducerSuccess, InProducerSuccess _ _ => true
  | _, _ => false
  end.
(** [Response::try_from(inbound)] with the [Unresolvable] fallback (src/client.rs:110-115). *)
Definition convert (k : resp_kind) (i : inbound) : outcome inbound :=
  if is_resp k i then Ok i else Err Unresolvable.
(** The response kind each call of src/client.rs asks for: connect (133),
    lookup (158,170), producer (187), subscribe (199), ack (216), send (229,243). *)
Definition resp_of (o : outbound) : option resp_kind :=
  match o with
  | OConnect _ => Some RConnected
  | OLookup _ _ => Some RLookup
  | OProducer _ _ _ _ => Some RProducerSuccess
  | OSubscribe _ _ _ _ _ => Some RSuccess
  | OAck _ => Some RAckReceipt
  | OSend _ => Some RReceipt
  | OPing | OPong | OAuth _ _ | OFlow _ _ => None
  end.

(** src/consumer.rs:125-128: [MessageIdData { batch_index: Some(i), ..id }]. *)
Definition with_batch_index (i : Z) (mid : message) : message :=
  filter (fun p => negb ((fst p =? 4) && match snd p with PUnk _ => false | _ => true end)) mid ++ [(4, PInt i)].
