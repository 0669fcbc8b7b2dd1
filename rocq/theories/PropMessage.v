(** C10-C16, C22, C23: requests, events, batches, correlation keys. *)
From Verif Require Import Bytes Errors Utf8 Wire Proto ProtoFacts SimFacts SpecProto Crc CrcFacts Codec SpecFrame SpecCodec CodecFacts
  PropCodec Address Message SpecMessage SpecKeys MessageFacts InboundFacts PropProto.
Open Scope N_scope.

(** * C10 *)
(** Every request a caller can build, carrying less than 1 GiB of data and, for an
    acknowledgement, at least one id, is written without panic, in debug and
    release builds alike, and what a peer decodes from the bytes has the type and
    the fields of the request. *)
Theorem C10_requests_reach_the_wire : forall oc now o,
  req_ok o -> now < 2 ^ 64 -> req_weight o < 2 ^ 30 -> o <> OAck [] ->
  exists mc b, to_cmd now o = Ok mc /\ encode oc mc = Ok b /\
    (forall rest, decode (b ++ rest) = Got mc rest) /\ denotes now o mc.
Proof.
  intros oc now o H1 H2 H3 H4. destruct (to_cmd_ok now o H1 H2 H3 H4) as (mc & E & D & K1 & K2 & K3).
  destruct (cmd_fits mc K1 K2 K3) as (F1 & F2 & F3).
  destruct (C01_encode_succeeds oc mc F1 F2 F3) as [b Hb].
  exists mc, b. repeat split; auto. intros rest. eapply C01_frame_roundtrip; eauto using fits_sendable.
Qed.
Print Assumptions C10_requests_reach_the_wire.

(** The only request that panics when written: an acknowledgement of no ids.
    [Client::ack] never builds it: it acknowledges exactly one id. *)
Theorem C10_panic_iff_empty_ack : forall now o,
  req_ok o -> now < 2 ^ 64 -> req_weight o < 2 ^ 30 -> (to_cmd now o = Panic <-> o = OAck []).
Proof.
  intros now o H1 H2 H3. split; [|now intros ->]. intros HP.
  assert (D : o = OAck [] \/ o <> OAck []).
  { destruct o as [| | | |[|a l]| | | | |]; (now left) || (right; discriminate). }
  destruct D as [D|D]; [exact D|]. destruct (to_cmd_ok now o H1 H2 H3 D) as (mc & E & _). congruence.
Qed.
Print Assumptions C10_panic_iff_empty_ack.

Definition ex_requests : list outbound :=
  [OPing; OPong;
   OConnect (mk_connect (Some (str "token")) (Some (str "token")) (Some (Proxy (str "pulsar://svc:6650") (str "pulsar://b1:6650"))));
   OSend (SSingle (str "p") 3 18446744073709551615 (str "hello"));
   OSend (SBatch (str "p") 3 8 [str "a"; str ""; str "bc"]);
   OAck [mk_ack 1 ex_mid 5; mk_ack 1 ex_mid 6];
   OLookup 0 (str "persistent://public/default/t"); OSubscribe (str "t") (str "s") 1 2 Shared;
   OAuth (str "m") (str "d"); OFlow 1 500; OProducer (str "t") 1 2 (Some (str "p"))].
Example C10_meets : Forall (fun o => req_ok o /\ req_weight o < 2 ^ 30 /\ o <> OAck []) ex_requests.
Proof.
  assert (Hm : mid_ok ex_mid) by (split; vm_compute; reflexivity).
  unfold ex_requests. repeat (apply Forall_cons); try apply Forall_nil;
    (split; [|split; [vm_compute; reflexivity|discriminate]]); cbn [req_ok opt_ok cn_auth_method cn_addr]; try exact I;
    unfold string_ok, u64, u32;
    repeat match goal with
    | |- _ /\ _ => split
    | |- utf8 _ = true => vm_compute; reflexivity
    | |- (_ < _)%N => vm_compute; reflexivity
    | |- Forall _ (_ :: _) => apply Forall_cons
    | |- Forall _ [] => apply Forall_nil
    | |- mid_ok _ => exact Hm
    end.
Qed.

(** The exception: the authentication answer goes out with the type of a challenge
    (36), not of a response (37), although it carries the response sub-message. *)
Theorem C10_auth_response_mislabelled : forall now method data mc,
  to_cmd now (OAuth method data) = Ok mc ->
  get_z 1 (mc_cmd mc) = Some 36%Z /\ get_m 36 (mc_cmd mc) = None /\ get_m 37 (mc_cmd mc) <> None.
Proof.
  intros now method data mc H. cbn [to_cmd] in H. injection H as <-. repeat split; try reflexivity. discriminate.
Qed.
Print Assumptions C10_auth_response_mislabelled.

(** * C11 *)
(** Exactly the meaning of the command's own type and fields. *)
Theorem C11_event_iff : forall mc i, to_inbound mc = Ok i <-> means mc i.
Proof. intros. split; [apply to_inbound_means|apply means_to_inbound]. Qed.
Print Assumptions C11_event_iff.
Theorem C11_unsupported_iff : forall mc,
  to_inbound mc = Err UnsupportedCommand <-> ~ exists ty, type_is mc ty /\ supported ty.
Proof. exact to_inbound_unsupported. Qed.
Print Assumptions C11_unsupported_iff.
Theorem C11_panic_iff : forall mc, to_inbound mc = Panic <-> broken mc.
Proof. exact to_inbound_panic. Qed.
Print Assumptions C11_panic_iff.
(** The only other outcome: a batch delivery whose entries cannot be read. *)
Theorem C11_other_errors : forall mc e, to_inbound mc = Err e -> e <> UnsupportedCommand ->
  e = DecodeFailed /\ type_is mc 9 /\ exists p n, mc_payload mc = Some p /\ get_z 11 (pl_meta p) = Some n /\ (1 < n)%Z /\
    ~ exists l rest, batch_reads (pl_data p) l rest /\ Z.of_nat (length l) = n.
Proof.
  intros mc e H Hn. destruct (to_inbound_err mc e H) as [|[-> Ht]]; [contradiction|].
  split; [reflexivity|]. split; [exact Ht|]. apply cmd_type_is in Ht. unfold to_inbound in H. rewrite Ht in H.
  unfold to_delivery in H. destruct (get_m 2 _) as [mid|]; [|discriminate]. destruct (mc_payload mc) as [p|]; [|discriminate].
  exists p. unfold num_in_batch in H. destruct (get_z 11 (pl_meta p)) as [n|]; cbn [z_or] in H.
  - destruct (Z.ltb_spec 1 n); [|discriminate]. exists n. repeat split; auto.
    intros (l & rest & Hr & Hl). unfold parse_batched_message in H.
    assert (E : count_batched (N.to_nat (Z.to_N n)) (pl_data p) = Some (l, rest)).
    { apply count_batched_iff. split; [exact Hr|lia]. }
    rewrite E in H. discriminate.
  - discriminate.
Qed.
Print Assumptions C11_other_errors.

(** ERROR (14) and SEND_ERROR (8) are unsupported whatever they say. *)
Theorem C11_broker_errors_unsupported : forall mc,
  type_is mc 14 \/ type_is mc 8 -> to_inbound mc = Err UnsupportedCommand.
Proof.
  intros mc H. apply to_inbound_unsupported. intros (ty & Ht & Hs).
  destruct H as [[H _]|[H _]]; destruct Ht as [Ht _]; rewrite H in Ht; injection Ht as <-;
    unfold supported in Hs; cbn in Hs; intuition discriminate.
Qed.
Print Assumptions C11_broker_errors_unsupported.

Example C11_meets :
  means (mk_cmd (base 38 38 [(1, PInt 2); (4, PInt 3); (6, PInt 9)]) None) (InAckReceipt 2 9) /\
  broken (mk_cmd [(1, PInt 13)] None) /\ type_is (mk_cmd (base 14 14 []) None) 14.
Proof.
  split; [|split].
  - assert (Ht : type_is (mk_cmd (base 38 38 [(1, PInt 2); (4, PInt 3); (6, PInt 9)]) None) 38)
      by (split; [reflexivity|cbn; tauto]).
    exact (M_ack _ [(1, PInt 2); (4, PInt 3); (6, PInt 9)] Ht eq_refl).
  - unfold broken. do 3 right. left. split; [split; [reflexivity|cbn; tauto]|reflexivity].
  - split; [reflexivity|cbn; tauto].
Qed.

(** * C12 *)
(** An acknowledgement response is understood from its consumer id (1) and request
    id (6) alone: its error code (4) and error text (5) are not looked at. *)
Theorem C12_ack_error_ignored : forall mc r,
  type_is mc 38 -> get_m 38 (mc_cmd mc) = Some r ->
  to_inbound mc = Ok (InAckReceipt (get_u 1 r) (get_u 6 r)) /\
  forall mc' r' err text, type_is mc' 38 -> get_m 38 (mc_cmd mc') = Some (r' ++ [(4, PInt err); (5, PBytes text)]) ->
    get_u 1 r' = get_u 1 r -> get_u 6 r' = get_u 6 r -> to_inbound mc' = to_inbound mc.
Proof.
  intros mc r Ht Hr. pose proof (means_to_inbound _ _ (M_ack mc r Ht Hr)) as E. split; [exact E|].
  intros mc' r' err text Ht' Hr' H1 H6.
  rewrite (means_to_inbound _ _ (M_ack mc' _ Ht' Hr')), E.
  unfold get_u in *. rewrite !get_z_app. cbn. now rewrite H1, H6.
Qed.
Print Assumptions C12_ack_error_ignored.
Theorem C12_producer_not_ready_ignored : forall mc r ready,
  type_is mc 17 -> get_m 17 (mc_cmd mc) = Some r -> get_z 6 r = Some ready ->
  to_inbound mc = Ok (InProducerSuccess (get_u 1 r) (b_or [] (get_b 2 r))).
Proof. intros mc r ready Ht Hr _. exact (means_to_inbound _ _ (M_producer mc r Ht Hr)). Qed.
Print Assumptions C12_producer_not_ready_ignored.
Example C12_meets :
  to_inbound (mk_cmd (base 38 38 [(1, PInt 2); (6, PInt 9); (4, PInt 3); (5, PBytes (str "boom"))]) None) = Ok (InAckReceipt 2 9) /\
  to_inbound (mk_cmd (base 17 17 [(1, PInt 2); (2, PBytes (str "p")); (6, PInt 0)]) None) = Ok (InProducerSuccess 2 (str "p")).
Proof. split; vm_compute; reflexivity. Qed.

(** * C13-C16 *)
(** What a broker does with a send: it stores the metadata and payload sections of
    the frame as the independent strict reader recovers them, and delivers them
    unchanged behind a MESSAGE command of its own ([cb]) that names a consumer and
    a message id. *)
Definition broker_delivers (sent delivered : bytes) (cid : N) (mid : message) : Prop :=
  exists cmd meta data cb dcmd m,
    strict_read sent = Some (cmd, Some (meta, data)) /\
    delivered = frame_bytes cb (Some (meta, data)) /\ frame_total cb (Some (meta, data)) < 2 ^ 32 /\
    parse_msg M_BaseCommand cb = Some dcmd /\
    get_z 1 dcmd = Some 9%Z /\ get_m 9 dcmd = Some m /\ get_m 2 m = Some mid /\ get_u 1 m = cid.

(** The frame of a send request. *)
Definition sends (oc : bool) (now : N) (s : send_req) (b : bytes) : Prop :=
  req_ok (OSend s) /\ now < 2 ^ 64 /\ req_weight (OSend s) < 2 ^ 30 /\
  exists mc, to_cmd now (OSend s) = Ok mc /\ encode oc mc = Ok b.

Lemma delivered_as oc now s b d cid mid rest :
  sends oc now s b -> broker_delivers b d cid mid ->
  exists mc dmc p, to_cmd now (OSend s) = Ok mc /\ mc_payload mc = Some p /\ denotes now (OSend s) mc /\
    decode (d ++ rest) = Got dmc rest /\ mc_payload dmc = Some p /\ type_is dmc 9 /\
    exists m, get_m 9 (mc_cmd dmc) = Some m /\ get_m 2 m = Some mid /\ get_u 1 m = cid.
Proof.
  intros (H1 & H2 & H3 & mc & Hc & He) (cmd & meta & data & cb & dcmd & m & Hs & -> & Ht & Hp & Hz & Hm & Hmid & Hcid).
  destruct (to_cmd_ok now (OSend s) H1 H2 H3) as (mc' & E & D & K1 & K2 & K3); [discriminate|].
  rewrite Hc in E. injection E as <-.
  destruct (cmd_fits mc K1 K2 K3) as (F1 & F2 & F3).
  destruct (C04_frames_valid oc mc b (fits_sendable mc F1) He) as [_ Hsr]. rewrite Hs in Hsr. injection Hsr as _ Hsect.
  unfold sect in Hsect. destruct (mc_payload mc) as [p|] eqn:Ep; [|discriminate]. injection Hsect as -> ->.
  exists mc, (mk_cmd dcmd (Some (mk_payload (pl_meta p) (pl_data p)))), p.
  split; [exact Hc|]. split; [exact Ep|]. split; [exact D|]. split; [|split; [|split]].
  - apply frame_decode_raw; [exact Hp| |exact Ht].
    apply parse_write_msg.
    + unfold cmd_ok in K1. rewrite Ep in K1. apply andb_true_iff in K1. apply K1.
    + specialize (F3 p eq_refl). change (2 ^ 31) with 2147483648 in F3. unfold u64_max. lia.
  - now destruct p.
  - split; [exact Hz|cbn; tauto].
  - exists m. auto.
Qed.

(** C13. Two or more payloads. *)
Theorem C13_batch_roundtrip : forall oc now name pid seq ds b d cid mid rest,
  sends oc now (SBatch name pid seq ds) b -> (2 <= length ds)%nat -> broker_delivers b d cid mid ->
  exists dmc parts, decode (d ++ rest) = Got dmc rest /\
    to_inbound dmc = Ok (InMessage (DBatch cid mid parts)) /\ map bp_data parts = ds.
Proof.
  intros oc now name pid seq ds b d cid mid rest Hs Hl Hb.
  assert (Hw := Hs). destruct Hw as (_ & _ & Hw & _). cbn [req_weight] in Hw. change (2 ^ 30) with 1073741824 in Hw.
  destruct (delivered_as _ _ _ _ _ _ _ rest Hs Hb) as (mc & dmc & p & _ & Hp & D & Hdec & Hdp & Ht & m & Hm & Hmid & Hcid).
  cbn [denotes] in D. destruct D as (s & p' & _ & Hp' & _ & _ & _ & _ & _ & _ & _ & Hn & Hdata).
  rewrite Hp in Hp'. injection Hp' as <-.
  assert (Hsm : Forall (fun x => blen x < 2147483648) ds).
  { clear -Hw. apply Forall_forall. intros x Hx.
    assert (blen x <= sum (map (fun d => 64 + blen d) ds)).
    { clear Hw. induction ds as [|y ds IH]; [destruct Hx|]. cbn [map]. rewrite sum_cons.
      destruct Hx as [->|Hx]; [lia|]. specialize (IH Hx). lia. }
    lia. }
  destruct (batch_part_reads ds [] Hsm) as (l & Hr & Hmap). rewrite app_nil_r, <- Hdata in Hr.
  exists dmc, l. split; [exact Hdec|]. split; [|exact Hmap].
  apply means_to_inbound. rewrite <- Hcid. unfold int_field in Hn.
  eapply M_batch; eauto; [lia|]. rewrite <- Hmap, map_length. lia.
Qed.
Print Assumptions C13_batch_roundtrip.

(** C16. A single message: exactly the payload, and the id the broker assigned. *)
Theorem C16_single_roundtrip : forall oc now name pid seq data b d cid mid rest,
  sends oc now (SSingle name pid seq data) b -> broker_delivers b d cid mid ->
  exists dmc, decode (d ++ rest) = Got dmc rest /\ to_inbound dmc = Ok (InMessage (DSingle cid mid data)).
Proof.
  intros oc now name pid seq data b d cid mid rest Hs Hb.
  destruct (delivered_as _ _ _ _ _ _ _ rest Hs Hb) as (mc & dmc & p & _ & Hp & D & Hdec & Hdp & Ht & m & Hm & Hmid & Hcid).
  cbn [denotes] in D. destruct D as (s & p' & _ & Hp' & _ & _ & _ & _ & _ & _ & _ & Hn & Hdata).
  rewrite Hp in Hp'. injection Hp' as <-.
  exists dmc. split; [exact Hdec|]. apply means_to_inbound. rewrite <- Hcid, <- Hdata.
  eapply M_single; eauto. right. exists 1%Z. split; [exact Hn|lia].
Qed.
Print Assumptions C16_single_roundtrip.

(** C14. One payload: the consumer gets the batch entry, which is longer than the
    payload by at least six bytes and so never equal to it. *)
Theorem C14_batch_of_one : forall oc now name pid seq x b d cid mid rest,
  sends oc now (SBatch name pid seq [x]) b -> broker_delivers b d cid mid ->
  exists dmc got, decode (d ++ rest) = Got dmc rest /\ to_inbound dmc = Ok (InMessage (DSingle cid mid got)) /\
    got = batch_part x /\ (exists header, got = header ++ x /\ 6 <= blen header) /\ got <> x.
Proof.
  intros oc now name pid seq x b d cid mid rest Hs Hb.
  destruct (delivered_as _ _ _ _ _ _ _ rest Hs Hb) as (mc & dmc & p & _ & Hp & D & Hdec & Hdp & Ht & m & Hm & Hmid & Hcid).
  cbn [denotes] in D. destruct D as (s & p' & _ & Hp' & _ & _ & _ & _ & _ & _ & _ & Hn & Hdata).
  rewrite Hp in Hp'. injection Hp' as <-. cbn [map concat] in Hdata. rewrite app_nil_r in Hdata.
  assert (Hh : exists header, batch_part x = header ++ x /\ 6 <= blen header).
  { unfold batch_part. eexists. rewrite app_assoc. split; [reflexivity|]. rewrite blen_app.
    change (blen [_; _; _; _]) with 4. unfold write_msg, raws, write_raws. cbn [map concat]. rewrite app_nil_r.
    unfold write_field. rewrite blen_app. cbn [fst snd to_raw write_wval].
    rewrite !write_varint_length.
    pose proof (varint_size_pos (tag 3 (WVarint (to_u64 (Z.of_N (blen x)))))).
    pose proof (varint_size_pos (to_u64 (Z.of_N (blen x)))). lia. }
  exists dmc, (batch_part x). split; [exact Hdec|]. split; [|split; [reflexivity|split; [exact Hh|]]].
  - apply means_to_inbound. rewrite <- Hcid, <- Hdata. eapply M_single; eauto. right. exists 1%Z. split; [exact Hn|lia].
  - destruct Hh as (h & -> & Hh). intros E. apply (f_equal blen) in E. rewrite blen_app in E. lia.
Qed.
Print Assumptions C14_batch_of_one.
Theorem C14_batch_of_none : forall oc now name pid seq b d cid mid rest,
  sends oc now (SBatch name pid seq []) b -> broker_delivers b d cid mid ->
  exists dmc, decode (d ++ rest) = Got dmc rest /\ to_inbound dmc = Ok (InMessage (DSingle cid mid [])).
Proof.
  intros oc now name pid seq b d cid mid rest Hs Hb.
  destruct (delivered_as _ _ _ _ _ _ _ rest Hs Hb) as (mc & dmc & p & _ & Hp & D & Hdec & Hdp & Ht & m & Hm & Hmid & Hcid).
  cbn [denotes] in D. destruct D as (s & p' & _ & Hp' & _ & _ & _ & _ & _ & _ & _ & Hn & Hdata).
  rewrite Hp in Hp'. injection Hp' as <-. cbn [map concat] in Hdata.
  exists dmc. split; [exact Hdec|]. apply means_to_inbound. rewrite <- Hcid, <- Hdata.
  eapply M_single; eauto. right. exists 0%Z. split; [exact Hn|lia].
Qed.
Print Assumptions C14_batch_of_none.

Lemma Some_inj2 {A B} (a a' : A) (b b' : B) : Some (a, b) = Some (a', b') -> a = a' /\ b = b'.
Proof. now intros [= -> ->]. Qed.
(** A broker delivering an actual three-payload batch to consumer 7 as entry (5,6). *)
Definition ex_batch : send_req := SBatch (str "p") 3 8 [str "a"; str ""; str "bc"].
Definition ex_batch_mc : msg_cmd :=
  match to_cmd 1700000000000 (OSend ex_batch) with Ok mc => mc | _ => mk_cmd [] None end.
Definition ex_batch_frame : bytes := match encode true ex_batch_mc with Ok b => b | _ => [] end.
Definition ex_deliver_cmd : message := base 9 9 [(1, PInt 7); (2, PMsg [(1, PInt 5); (2, PInt 6)])].
Definition ex_delivered : bytes := frame_bytes (write_msg ex_deliver_cmd) (sect ex_batch_mc).
Example C13_meets :
  sends true 1700000000000 ex_batch ex_batch_frame /\
  broker_delivers ex_batch_frame ex_delivered 7 [(1, PInt 5); (2, PInt 6)].
Proof.
  split.
  - unfold sends. split; [|split; [|split]].
    + unfold ex_batch, req_ok, string_ok, u64. split; [|split]; vm_compute; reflexivity.
    + vm_compute; reflexivity.
    + vm_compute; reflexivity.
    + exists ex_batch_mc. split; vm_compute; reflexivity.
  - unfold broker_delivers.
    destruct (sect ex_batch_mc) as [[meta data]|] eqn:Es; [|vm_compute in Es; discriminate].
    exists (write_msg (mc_cmd ex_batch_mc)), meta, data, (write_msg ex_deliver_cmd), ex_deliver_cmd,
      [(1, PInt 7); (2, PMsg [(1, PInt 5); (2, PInt 6)])].
    unfold ex_delivered. rewrite Es. vm_compute in Es. apply Some_inj2 in Es. destruct Es as [<- <-].
    split; [vm_compute; reflexivity|]. split; [reflexivity|].
    split; [vm_compute; reflexivity|]. split; [vm_compute; reflexivity|].
    split; [vm_compute; reflexivity|]. split; [vm_compute; reflexivity|].
    split; [vm_compute; reflexivity|]. vm_compute; reflexivity.
Qed.
Example C13_instance :
  match decode ex_delivered with
  | Got dmc [] => match to_inbound dmc with
                  | Ok (InMessage (DBatch 7 _ l)) => map bp_data l = [str "a"; str ""; str "bc"]
                  | _ => False end
  | _ => False end.
Proof. vm_compute. reflexivity. Qed.

(** * C15 *)
(** The result is the whole list of declared entries, read off the front of the
    data, or DecodeFailed; never a partial list, never a panic. *)
Theorem C15_all_or_nothing : forall n data,
  (exists l rest, parse_batched_message n data = Ok l /\ N.of_nat (length l) = n /\ batch_reads data l rest) \/
  (parse_batched_message n data = Err DecodeFailed /\
   ~ exists l rest, batch_reads data l rest /\ N.of_nat (length l) = n).
Proof.
  intros n data. unfold parse_batched_message. destruct (count_batched (N.to_nat n) data) as [[l rest]|] eqn:E.
  - left. apply count_batched_iff in E. destruct E as [E El]. exists l, rest. repeat split; auto. lia.
  - right. split; [reflexivity|]. intros (l & rest & Hr & Hl).
    assert (X : count_batched (N.to_nat n) data = Some (l, rest)) by (apply count_batched_iff; split; [exact Hr|lia]).
    congruence.
Qed.
Print Assumptions C15_all_or_nothing.
(** Every payload is a slice of the entry, in order and without overlap, so the
    total never exceeds it. *)
Fixpoint total_size (l : list batched) : N := match l with [] => 0 | x :: r => blen (bp_data x) + total_size r end.
Theorem C15_never_past_the_end : forall n data l,
  parse_batched_message n data = Ok l -> 4 * N.of_nat (length l) + total_size l <= blen data.
Proof.
  intros n data l H. destruct (C15_all_or_nothing n data) as [(l' & rest & E & _ & Hr)|[E _]]; [|congruence].
  rewrite E in H. injection H as <-. clear E n.
  enough (4 * N.of_nat (length l') + total_size l' + blen rest <= blen data) by lia.
  induction Hr; cbn [length total_size bp_data]; [lia|].
  rewrite !blen_app. replace (blen (be_bytes 4 (blen mb))) with 4 by (unfold blen at 1; now rewrite be_bytes_length). lia.
Qed.
Print Assumptions C15_never_past_the_end.
Theorem C15_trailing_bytes_ignored : forall n data l extra,
  parse_batched_message n data = Ok l -> parse_batched_message n (data ++ extra) = Ok l.
Proof.
  intros n data l extra H. destruct (C15_all_or_nothing n data) as [(l' & rest & E & Hl & Hr)|[E _]]; [|congruence].
  rewrite E in H. injection H as ->. unfold parse_batched_message.
  assert (X : count_batched (N.to_nat n) (data ++ extra) = Some (l, rest ++ extra)).
  { apply count_batched_iff. split; [|lia]. clear -Hr. induction Hr; [constructor|].
    rewrite <- !app_assoc. econstructor; eauto. }
  now rewrite X.
Qed.
Print Assumptions C15_trailing_bytes_ignored.
Example C15_meets : parse_batched_message 2 (batch_part (str "x") ++ batch_part (str "yz") ++ str "junk")
    = Ok [mk_batched [(3, PInt 1)] (str "x"); mk_batched [(3, PInt 2)] (str "yz")]
  /\ parse_batched_message 3 (batch_part (str "x") ++ batch_part (str "yz") ++ str "junk") = Err DecodeFailed.
Proof. split; vm_compute; reflexivity. Qed.

(** * C22, C23 *)
Lemma okey_kind o k : kind_of o = Some k -> okey o = Some match k with
  | KConnect => str "CONNECT" | KSend seq => str "SEND:" ++ dec seq | KAck => str "ACK" | KLookup => str "LOOKUP"
  | KSubscribe => str "SUBSCRIBE" | KAuth => str "AUTH_CHALLENGE" | KFlow => str "FLOW" | KProducer => str "PRODUCER" end.
Proof. destruct o as [| | |[?|?]| | | | | |]; cbn; intros E; try discriminate; injection E as <-; reflexivity. Qed.

(** C23. Same key exactly when same kind (and sequence number, for sends). *)
Theorem C23_key_iff_kind : forall o1 o2, okey o1 = okey o2 <-> kind_of o1 = kind_of o2.
Proof.
  intros o1 o2. destruct (kind_of o1) as [k1|] eqn:E1, (kind_of o2) as [k2|] eqn:E2;
    rewrite ?(okey_kind _ _ E1), ?(okey_kind _ _ E2).
  - split; [|now intros [= ->]]. intros H. f_equal. destruct k1, k2; try reflexivity; try (vm_compute in H; discriminate).
    f_equal. apply dec_inj. injection H as H. exact H.
  - destruct o2 as [| | |[?|?]| | | | | |]; try discriminate; split; discriminate.
  - destruct o1 as [| | |[?|?]| | | | | |]; try discriminate; split; discriminate.
  - destruct o1 as [| | |[?|?]| | | | | |], o2 as [| | |[?|?]| | | | | |]; try discriminate; split; reflexivity.
Qed.
Print Assumptions C23_key_iff_kind.
(** In particular neither the client nor the request id matters. *)
Example C23_meets : okey (OAck [mk_ack 1 [] 5]) = okey (OAck [mk_ack 2 ex_mid 9; mk_ack 2 ex_mid 10]) /\
  okey (OSend (SSingle (str "p") 1 12 [])) = okey (OSend (SBatch (str "q") 2 12 [[]])) /\
  okey (OSend (SSingle (str "p") 1 12 [])) <> okey (OSend (SSingle (str "p") 1 1 [])).
Proof. split; [reflexivity|split; [reflexivity|]]. vm_compute. discriminate. Qed.

(** An event has the key of a request exactly when it answers requests of that kind. *)
Theorem C22_match_iff_answers : forall o i k, kind_of o = Some k -> (okey o = ikey i <-> answers i k).
Proof.
  intros o i k E. rewrite (okey_kind _ _ E).
  destruct i, k; cbn [ikey answers]; split; intros H; try contradiction; try reflexivity; try exact I;
    try (vm_compute in H; discriminate).
  - symmetry. apply dec_inj. injection H as H. exact H.
  - now subst.
Qed.
Print Assumptions C22_match_iff_answers.

(** C22. A matched event converts to the type the caller waits for: never Unresolvable. *)
Theorem C22_resolved_converts : forall o i key k,
  okey o = Some key -> ikey i = Some key -> resp_of o = Some k -> convert k i = Ok i.
Proof.
  intros o i key k Ho Hi Hk.
  destruct (kind_of o) as [kk|] eqn:E; [|destruct o as [| | |[?|?]| | | | | |]; discriminate].
  assert (A : answers i kk) by (apply (C22_match_iff_answers o i kk E); congruence).
  destruct o as [| | |[?|?]| | | | | |]; cbn in E, Hk; try discriminate; injection E as <-; injection Hk as <-;
    destruct i; cbn in A; try contradiction; reflexivity.
Qed.
Print Assumptions C22_resolved_converts.

(** C22. Deliveries, pings and pongs never match a request. *)
Theorem C22_deliveries_never_resolve : forall o d key, okey o = Some key -> ikey (InMessage d) <> Some key.
Proof.
  intros o d key H. destruct (kind_of o) as [k|] eqn:E; [|destruct o as [| | |[?|?]| | | | | |]; discriminate].
  rewrite (okey_kind _ _ E) in H. injection H as <-. destruct k; vm_compute; discriminate.
Qed.
Print Assumptions C22_deliveries_never_resolve.
Example C22_meets : okey (OSend (SSingle (str "p") 1 12 [])) = ikey (InReceipt 4 12 ex_mid).
Proof. reflexivity. Qed.
