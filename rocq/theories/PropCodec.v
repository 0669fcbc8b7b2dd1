(** C01-C06: framing. *)
From Verif Require Import Bytes Errors Wire Proto ProtoFacts Crc CrcFacts Codec SpecFrame SpecCodec CodecFacts.
Open Scope N_scope.

Lemma u32_pow : u32_max = 2 ^ 32. Proof. reflexivity. Qed.

(** A concrete command with payload: the SEND frame of src/message.rs:1094-1115. *)
Definition ex_cmd : msg_cmd :=
  mk_cmd [(1, PInt 6); (6, PMsg [(1, PInt 0); (2, PInt 8)])]
    (Some (mk_payload
       [(1, PBytes (str "standalone-0-3")); (2, PInt 8); (3, PInt 1533850624062)]
       (str "hello-pulsar-8"))).
Definition golden1 : bytes := map n2b
  [0x00; 0x00; 0x00; 0x3D; 0x00; 0x00; 0x00; 0x08; 0x08; 0x06; 0x32; 0x04; 0x08; 0x00;
   0x10; 0x08; 0x0E; 0x01; 0x42; 0x83; 0x54; 0xB5; 0x00; 0x00; 0x00; 0x19; 0x0A; 0x0E;
   0x73; 0x74; 0x61; 0x6E; 0x64; 0x61; 0x6C; 0x6F; 0x6E; 0x65; 0x2D; 0x30; 0x2D; 0x33;
   0x10; 0x08; 0x18; 0xBE; 0xC0; 0xFC; 0x84; 0xD2; 0x2C; 0x68; 0x65; 0x6C; 0x6C; 0x6F;
   0x2D; 0x70; 0x75; 0x6C; 0x73; 0x61; 0x72; 0x2D; 0x38].
Definition golden2 : bytes := map n2b
  [0; 0; 0; 61; 0; 0; 0; 10; 8; 6; 50; 6; 8; 0; 16; 0; 24; 1; 14; 1; 193; 160; 85; 188; 0;
   0; 0; 31; 10; 13; 116; 101; 115; 116; 45; 112; 114; 111; 100; 117; 99; 101; 114; 16; 0;
   24; 233; 233; 167; 204; 215; 49; 96; 233; 233; 167; 204; 215; 49; 100; 97; 116; 97; 45; 48].

(** The model agrees with the golden vectors of the repository's own tests:
    decoding yields the fields they assert, and encoding what was decoded gives
    back the very bytes, checksum included. *)
Example golden1_decodes : decode golden1 = Got ex_cmd [].
Proof. vm_compute. reflexivity. Qed.
Example golden1_encodes : encode true ex_cmd = Ok golden1.
Proof. vm_compute. reflexivity. Qed.
Example golden2_roundtrip :
  match decode golden2 with Got mc [] => encode true mc = Ok golden2 | _ => False end.
Proof. vm_compute. reflexivity. Qed.
Example ex_cmd_fits : fits ex_cmd.
Proof. split; vm_compute; reflexivity. Qed.

(** C01. Encoding then decoding, with anything behind it in the buffer. [oc]:
    with or without overflow checks. *)
Theorem C01_frame_roundtrip : forall oc mc b rest,
  sendable mc -> encode oc mc = Ok b -> decode (b ++ rest) = Got mc rest.
Proof.
  intros oc mc b rest [Hok Hf] He. rewrite <- u32_pow in Hf.
  rewrite (encode_bytes oc mc b He). apply frame_decode; [exact Hok|lia].
Qed.
Print Assumptions C01_frame_roundtrip.

(** C01. Encoding never fails for such a command whose command and metadata are
    below the protobuf library's 2 GiB limit. *)
Theorem C01_encode_succeeds : forall oc mc,
  fits mc ->
  blen (write_msg (mc_cmd mc)) < 2 ^ 31 ->
  (forall p, mc_payload mc = Some p -> blen (write_msg (pl_meta p)) < 2 ^ 31) ->
  exists b, encode oc mc = Ok b.
Proof.
  intros oc mc [Hok Hf] Hc Hm. rewrite <- u32_pow in Hf.
  unfold cmd_ok in Hok. apply andb_true_iff in Hok. destruct Hok as [H1 H2].
  apply encode_ok; auto.
  - destruct (mc_payload mc); [exact H2|exact I].
  - destruct (mc_payload mc); [apply (Hm _ eq_refl)|exact I].
Qed.
Print Assumptions C01_encode_succeeds.

(** C01. The boundary, for data below 4 GiB. Built with overflow checks, encoding
    panics exactly when the frame with its size field reaches 2^32 bytes; built
    without, it always succeeds. *)
Theorem C01_overflow_boundary : forall mc,
  cmd_ok mc = true ->
  blen (write_msg (mc_cmd mc)) < 2 ^ 31 ->
  (forall p, mc_payload mc = Some p -> blen (write_msg (pl_meta p)) < 2 ^ 31 /\ blen (pl_data p) < 2 ^ 32) ->
  (encode true mc = Panic <-> 2 ^ 32 <= frame_total (write_msg (mc_cmd mc)) (sect mc) + 4) /\
  (exists b, encode false mc = Ok b).
Proof.
  intros mc Hok Hc Hm. rewrite <- u32_pow in *.
  unfold cmd_ok in Hok. apply andb_true_iff in Hok. destruct Hok as [H1 H2].
  assert (P1 : match mc_payload mc with None => True | Some p => well_typed M_MessageMetadata (pl_meta p) = true end)
    by (destruct (mc_payload mc); [exact H2|exact I]).
  assert (P2 : match mc_payload mc with None => True | Some p => blen (write_msg (pl_meta p)) < proto_max end)
    by (destruct (mc_payload mc); [apply (Hm _ eq_refl)|exact I]).
  assert (P3 : match mc_payload mc with None => 0 | Some p => blen (pl_data p) end < u32_max)
    by (destruct (mc_payload mc); [apply (Hm _ eq_refl)|reflexivity]).
  split.
  - destruct (encode_cases true mc H1 P1 Hc P2) as [(b & He & Hb)|(He & _ & Hb)]; rewrite He; split; auto; try discriminate.
    intros H. specialize (Hb eq_refl P3). lia.
  - destruct (encode_cases false mc H1 P1 Hc P2) as [(b & He & _)|(_ & He & _)]; [eauto|discriminate He].
Qed.
Print Assumptions C01_overflow_boundary.

(** C04. Every frame written is exactly the frame of the specification, and the
    strict reader recovers command, metadata and payload from it. *)
Theorem C04_frames_valid : forall oc mc b,
  sendable mc -> encode oc mc = Ok b ->
  b = frame_of mc /\ strict_read b = Some (write_msg (mc_cmd mc), sect mc).
Proof.
  intros oc mc b [Hok Hf] He. rewrite <- u32_pow in Hf.
  rewrite (encode_bytes oc mc b He). split; [reflexivity|].
  clear He b. unfold strict_read, frame_bytes.
  set (cmd := write_msg (mc_cmd mc)) in *. set (s := sect mc) in *.
  assert (Hbl : blen (be32 (blen cmd) ++ cmd ++ section_bytes s) = frame_total cmd s).
  { unfold frame_total, section_bytes. rewrite be32_put, !blen_app, put_u32_len.
    destruct s as [[m d]|]; [|rewrite blen_nil; lia].
    rewrite !blen_cons, !be32_put, !blen_app, !put_u32_len. lia. }
  rewrite rd32_get, be32_put. unfold put_u32.
  rewrite get_be_put by (change (256 ^ N.of_nat 4) with u32_max; lia).
  rewrite N.eqb_refl. cbn [negb].
  rewrite rd32_get. unfold frame_total in *.
  rewrite be32_put. unfold put_u32. rewrite get_be_put by (change (256 ^ N.of_nat 4) with u32_max; lia).
  rewrite cut_take, take_n_app by reflexivity.
  destruct s as [[m d]|]; cbn [section_bytes]; [|reflexivity].
  replace ((b2n (n2b 14) =? 14) && (b2n (n2b 1) =? 1)) with true by reflexivity. cbn [negb].
  rewrite rd32_get, (be32_put (spec_crc _)). unfold put_u32 at 1. rewrite get_be_put.
  2:{ change (256 ^ N.of_nat 4) with u32_max. rewrite <- crc32c_spec. apply crc32c_bound. }
  rewrite N.eqb_refl. cbn [negb].
  rewrite rd32_get, be32_put. unfold put_u32.
  rewrite get_be_put by (change (256 ^ N.of_nat 4) with u32_max; lia).
  rewrite cut_take, take_n_app by reflexivity. reflexivity.
Qed.
Print Assumptions C04_frames_valid.

(** C04. A frame whose size does not fit the size field is, if it is written at
    all, refused by the strict reader: the size field is truncated. *)
Theorem C04_oversized_refused : forall oc mc b,
  encode oc mc = Ok b -> 2 ^ 32 <= frame_total (write_msg (mc_cmd mc)) (sect mc) -> strict_read b = None.
Proof.
  intros oc mc b He Hb. rewrite <- u32_pow in Hb.
  rewrite (encode_bytes oc mc b He). clear He b. unfold strict_read, frame_bytes.
  set (cmd := write_msg (mc_cmd mc)) in *. set (s := sect mc) in *.
  assert (Hbl : blen (be32 (blen cmd) ++ cmd ++ section_bytes s) = frame_total cmd s).
  { unfold frame_total, section_bytes. rewrite be32_put, !blen_app, put_u32_len.
    destruct s as [[m d]|]; [|rewrite blen_nil; lia].
    rewrite !blen_cons, !be32_put, !blen_app, !put_u32_len. lia. }
  rewrite rd32_get, Hbl, be32_put, <- put_u32_mod. unfold put_u32.
  rewrite get_be_put by (apply N.mod_lt; unfold u32_max; lia).
  rewrite Hbl.
  destruct (N.eqb_spec (frame_total cmd s) (frame_total cmd s mod u32_max)) as [E|E]; [|reflexivity].
  pose proof (N.mod_lt (frame_total cmd s) u32_max ltac:(unfold u32_max; lia)). lia.
Qed.
Print Assumptions C04_oversized_refused.

(** Such frames exist: the command above with 4 GiB of data, written by a build
    without overflow checks. *)
Definition ex_big : msg_cmd :=
  mk_cmd (mc_cmd ex_cmd) (Some (mk_payload [(1, PBytes (str "p")); (2, PInt 8); (3, PInt 1)] (repeat (n2b 7) (N.to_nat (2 ^ 32 - 1))))).
Example C04_oversized_meets : exists b, encode false ex_big = Ok b /\ 2 ^ 32 <= frame_total (write_msg (mc_cmd ex_big)) (sect ex_big) /\
  encode true ex_big = Panic.
Proof.
  assert (Hd : blen (repeat (n2b 7) (N.to_nat (2 ^ 32 - 1))) = 2 ^ 32 - 1) by (unfold blen; rewrite repeat_length; lia).
  unfold ex_big. revert Hd. generalize (repeat (n2b 7) (N.to_nat (2 ^ 32 - 1))). intros d Hd.
  set (mc := mk_cmd _ _).
  assert (Hk : cmd_ok mc = true) by (vm_compute; reflexivity).
  assert (Hc : blen (write_msg (mc_cmd mc)) < 2 ^ 31) by (vm_compute; reflexivity).
  assert (Ht : 2 ^ 32 <= frame_total (write_msg (mc_cmd mc)) (sect mc)).
  { unfold frame_total, mc, sect. cbn [mc_payload pl_data pl_meta]. rewrite Hd.
    match goal with |- 2 ^ 32 <= 4 + ?x + (10 + ?y + _) => pose proof (N.le_0_l x); pose proof (N.le_0_l y) end. lia. }
  destruct (C01_overflow_boundary mc Hk Hc) as [P (b & Hb)].
  { intros p Hp. injection Hp as <-. split; [vm_compute; reflexivity|]. cbn [pl_data]. rewrite Hd. reflexivity. }
  exists b. split; [exact Hb|]. split; [exact Ht|]. apply P. lia.
Qed.

Example C04_meets : exists b, encode true ex_cmd = Ok b /\ strict_read b <> None.
Proof. exists golden1. split; [exact golden1_encodes|]. vm_compute. discriminate. Qed.

(** C02. The items read depend only on the bytes received, not on their
    segmentation; this holds for arbitrary, also malformed, bytes. *)
Theorem C02_segmentation_irrelevant : forall reads1 reads2 closed,
  concat reads1 = concat reads2 -> stream_items reads1 closed = stream_items reads2 closed.
Proof. intros r1 r2 c H. rewrite !stream_items_spec. now rewrite H. Qed.
Print Assumptions C02_segmentation_irrelevant.

Lemma frames_of_encode oc mcs frames :
  Forall sendable mcs -> Forall2 (fun mc b => encode oc mc = Ok b) mcs frames ->
  frames = map frame_of mcs /\ Forall sendable mcs.
Proof.
  intros Hf H. induction H as [|mc b mcs frames He H IH]; [split; constructor|].
  inversion Hf as [|? ? H1 H2]; subst. destruct (IH H2) as [-> Hs]. split.
  - cbn [map]. f_equal. eapply C04_frames_valid; eassumption.
  - constructor; [|exact Hs]. destruct H1 as [Ha Hb]. split; [exact Ha|lia].
Qed.

Lemma items_of_frames mcs part closed :
  Forall sendable mcs -> decode part = Wait ->
  items_of (concat (map frame_of mcs) ++ part) closed =
  map IFrame mcs ++ (if closed then match part with [] => [IEnd] | _ => [IErr DecodeFailed; IEnd] end else []).
Proof.
  intros Hs Hw. unfold items_of. rewrite drain_frames by exact Hs.
  rewrite drain_all_eq, Hw. now rewrite app_nil_r.
Qed.

(** C02. The stream of the frames of [mcs], cut into reads in any way: while only
    the first [k] frames and a proper part of the next have arrived, exactly the
    first [k] commands have been read. *)
Theorem C02_stream_reassembly : forall oc mcs frames reads k part,
  Forall sendable mcs -> Forall2 (fun mc b => encode oc mc = Ok b) mcs frames ->
  (k <= length frames)%nat ->
  concat reads = concat (firstn k frames) ++ part ->
  (part = [] \/ exists more, more <> [] /\ nth_error frames k = Some (part ++ more)) ->
  stream_items reads false = map IFrame (firstn k mcs).
Proof.
  intros oc mcs frames reads k part Hf He Hk Hc Hp.
  destruct (frames_of_encode oc mcs frames Hf He) as [-> Hs].
  rewrite stream_items_spec, Hc, firstn_map.
  assert (Hw : decode part = Wait).
  { destruct Hp as [->|(more & Hm & Hn)]; [reflexivity|].
    rewrite nth_error_map in Hn. destruct (nth_error mcs k) as [mc|] eqn:E; [|discriminate].
    cbn in Hn. injection Hn as Hn. eapply prefix_waits; [|exact Hn|exact Hm].
    rewrite Forall_forall in Hs. apply Hs. eapply nth_error_In; exact E. }
  rewrite items_of_frames; [apply app_nil_r| |exact Hw].
  rewrite Forall_forall in *. intros x Hx. apply Hs. rewrite <- (firstn_skipn k mcs). apply in_or_app. now left.
Qed.
Print Assumptions C02_stream_reassembly.

(** C02/C03. When everything has arrived and the peer closes on a frame boundary:
    all the commands in order, each once, then end of stream. *)
Theorem C02_complete_stream : forall oc mcs frames reads,
  Forall sendable mcs -> Forall2 (fun mc b => encode oc mc = Ok b) mcs frames ->
  concat reads = concat frames ->
  stream_items reads true = map IFrame mcs ++ [IEnd].
Proof.
  intros oc mcs frames reads Hf He Hc.
  destruct (frames_of_encode oc mcs frames Hf He) as [-> Hs].
  rewrite stream_items_spec, Hc, <- (app_nil_r (concat _)).
  rewrite items_of_frames; [reflexivity|exact Hs|reflexivity].
Qed.
Print Assumptions C02_complete_stream.

(** C03. The peer closes inside frame number [k]. *)
Theorem C03_truncated_stream : forall oc mcs frames reads k part more,
  Forall sendable mcs -> Forall2 (fun mc b => encode oc mc = Ok b) mcs frames ->
  nth_error frames k = Some (part ++ more) -> part <> [] -> more <> [] ->
  concat reads = concat (firstn k frames) ++ part ->
  stream_items reads true = map IFrame (firstn k mcs) ++ [IErr DecodeFailed; IEnd].
Proof.
  intros oc mcs frames reads k part more Hf He Hn Hp Hm Hc.
  destruct (frames_of_encode oc mcs frames Hf He) as [-> Hs].
  rewrite stream_items_spec, Hc, firstn_map.
  rewrite nth_error_map in Hn. destruct (nth_error mcs k) as [mc|] eqn:E; [|discriminate].
  cbn in Hn. injection Hn as Hn.
  rewrite items_of_frames.
  - destruct part; [contradiction|reflexivity].
  - rewrite Forall_forall in *. intros x Hx. apply Hs. rewrite <- (firstn_skipn k mcs). apply in_or_app. now left.
  - eapply prefix_waits; [|exact Hn|exact Hm].
    rewrite Forall_forall in Hs. apply Hs. eapply nth_error_In; exact E.
Qed.
Print Assumptions C03_truncated_stream.

(** Hypotheses met: two frames, second cut after ten bytes, reads of 7 bytes. *)
Example C03_meets :
  let fr := [golden1; golden1] in
  Forall fits [ex_cmd; ex_cmd] /\ Forall2 (fun mc b => encode false mc = Ok b) [ex_cmd; ex_cmd] fr /\
  nth_error fr 1 = Some (firstn 10 golden1 ++ skipn 10 golden1) /\
  stream_items [firstn 7 golden1; skipn 7 golden1 ++ firstn 10 golden1] true =
    [IFrame ex_cmd; IErr DecodeFailed; IEnd].
Proof.
  cbn zeta. repeat split; repeat constructor; vm_compute; try reflexivity.
Qed.

(** C05. A complete incoming frame with command bytes [cmd] and a payload section:
    the six bytes of magic number and checksum are irrelevant. *)
Theorem C05_checksum_ignored : forall total cmd six1 six2 tail,
  blen six1 = 6 -> blen six2 = 6 -> blen cmd < 2 ^ 32 -> total < 2 ^ 32 ->
  4 + blen cmd + 6 <= total ->
  decode (be32 total ++ be32 (blen cmd) ++ cmd ++ six1 ++ tail) =
  decode (be32 total ++ be32 (blen cmd) ++ cmd ++ six2 ++ tail).
Proof.
  intros total cmd s1 s2 tail H1 H2 Hc Ht Hle.
  destruct (N.leb_spec total (4 + blen cmd + 6 + blen tail)) as [Hfull|Hshort].
  - set (k := total - (4 + blen cmd + 6)).
    assert (Hk : k <= blen tail) by (unfold k; lia).
    destruct (take_n k tail) as [[t1 t2]|] eqn:Et.
    2:{ apply take_n_none in Et. lia. }
    apply take_n_some in Et. destruct Et as [-> Ek].
    assert (E : forall s, blen s = 6 ->
      be32 total ++ be32 (blen cmd) ++ cmd ++ s ++ t1 ++ t2 =
      put_u32 (blen (put_u32 (blen cmd) ++ cmd ++ s ++ t1)) ++ (put_u32 (blen cmd) ++ cmd ++ s ++ t1) ++ t2).
    { intros s Hs. rewrite !be32_put, <- !app_assoc. do 2 f_equal.
      rewrite !blen_app, put_u32_len. unfold k in *. lia. }
    rewrite !E by assumption.
    assert (Hlen : forall s, blen s = 6 -> blen (put_u32 (blen cmd) ++ cmd ++ s ++ t1) = total).
    { intros s Hs. rewrite !blen_app, put_u32_len. unfold k in *. lia. }
    rewrite !decode_frame by (rewrite Hlen; assumption).
    replace (body_result (put_u32 (blen cmd) ++ cmd ++ s2 ++ t1)) with (body_result (put_u32 (blen cmd) ++ cmd ++ s1 ++ t1)); [reflexivity|].
    unfold body_result, put_u32. rewrite !get_be_put by exact Hc. rewrite !take_n_app by reflexivity.
    destruct (parse_msg M_BaseCommand cmd); [|reflexivity].
    assert (Hpf : forall s, blen s = 6 -> payload_frame (s ++ t1) =
       match get_be 4 t1 with Some (n, b3) => take_n n b3 | None => None end).
    { intros s Hs. unfold blen in Hs.
      destruct s as [|a0 [|a1 [|a2 [|a3 [|a4 [|a5 [|a6 s]]]]]]]; cbn [length] in Hs; try lia.
      unfold payload_frame. cbn [app].
      change (a0 :: a1 :: a2 :: a3 :: a4 :: a5 :: t1) with ([a0; a1] ++ [a2; a3; a4; a5] ++ t1).
      unfold get_be at 1. rewrite take_n_app by reflexivity.
      unfold get_be at 1. rewrite take_n_app by reflexivity. reflexivity. }
    destruct s1 as [|x1 s1]; [discriminate H1|]. destruct s2 as [|x2 s2]; [discriminate H2|].
    cbn [app]. change (x1 :: s1 ++ t1) with ((x1 :: s1) ++ t1). change (x2 :: s2 ++ t1) with ((x2 :: s2) ++ t1).
    rewrite !Hpf by assumption. reflexivity.
  - assert (E : forall s, blen s = 6 -> decode (be32 total ++ be32 (blen cmd) ++ cmd ++ s ++ tail) = Wait).
    { intros s Hs. unfold decode. rewrite !be32_put, !blen_app, !put_u32_len, Hs.
      destruct (N.ltb_spec (4 + (4 + (blen cmd + (6 + blen tail)))) 4); [reflexivity|].
      change 4%nat with (N.to_nat 4). rewrite firstn_blen by (now rewrite put_u32_len).
      unfold put_u32. rewrite be_val_be_bytes_small by exact Ht.
      destruct (N.leb_spec (total + 4) (4 + (4 + (blen cmd + (6 + blen tail))))); [lia|reflexivity]. }
    now rewrite !E.
Qed.
Print Assumptions C05_checksum_ignored.

(** Corollary on a frame the client itself would write: any payload corruption
    that keeps the sizes is delivered, with the wrong checksum, without error. *)
Theorem C05_corruption_delivered : forall mc p data',
  fits mc -> mc_payload mc = Some p -> blen data' = blen (pl_data p) ->
  exists pre crc post,
    frame_of mc = pre ++ crc ++ post ++ pl_data p /\ blen crc = 4 /\
    decode (pre ++ crc ++ post ++ data') = Got (mk_cmd (mc_cmd mc) (Some (mk_payload (pl_meta p) data'))) [].
Proof.
  intros mc p data' [Hok Hf] Hp Hd.
  set (mc' := mk_cmd (mc_cmd mc) (Some (mk_payload (pl_meta p) data'))).
  assert (Hfit : cmd_ok mc' = true /\ frame_total (write_msg (mc_cmd mc')) (sect mc') < u32_max).
  { unfold cmd_ok, frame_total, sect in *. subst mc'. cbn [mc_cmd mc_payload pl_meta pl_data].
    rewrite Hp in *. split; [exact Hok|]. rewrite Hd. change u32_max with (2 ^ 32). lia. }
  destruct Hfit as [Hok' Hf'].
  pose proof (frame_decode mc' [] Hok' Hf') as D. rewrite app_nil_r in D.
  unfold frame_of, frame_bytes, section_bytes, sect in *. rewrite Hp in *. subst mc'. cbn [mc_cmd mc_payload pl_meta pl_data] in *.
  set (cmd := write_msg (mc_cmd mc)) in *. set (meta := write_msg (pl_meta p)) in *.
  set (tl1 := be32 (blen meta) ++ meta ++ pl_data p) in *.
  set (tl2 := be32 (blen meta) ++ meta ++ data') in *.
  set (total := blen (be32 (blen cmd) ++ cmd ++ n2b 14 :: n2b 1 :: be32 (spec_crc tl1) ++ tl1)).
  assert (Et : blen (be32 (blen cmd) ++ cmd ++ n2b 14 :: n2b 1 :: be32 (spec_crc tl2) ++ tl2) = total).
  { unfold total, tl1, tl2. rewrite !blen_app, !blen_cons, !be32_put, !blen_app, !put_u32_len. rewrite Hd. reflexivity. }
  rewrite Et in D.
  exists (be32 total ++ be32 (blen cmd) ++ cmd ++ [n2b 14; n2b 1]), (be32 (spec_crc tl1)), (be32 (blen meta) ++ meta).
  split; [|split].
  - unfold tl1. rewrite <- !app_assoc. cbn [app]. reflexivity.
  - rewrite be32_put. apply put_u32_len.
  - rewrite <- D.
    assert (Htot : total = 4 + blen cmd + 6 + blen tl2).
    { rewrite <- Et. rewrite !blen_app, !blen_cons, !be32_put, !blen_app, !put_u32_len. lia. }
    assert (Hsz : total < 2 ^ 32 /\ blen cmd < 2 ^ 32).
    { rewrite Htot. unfold frame_total, tl2 in *. rewrite !blen_app, be32_put, put_u32_len.
      unfold u32_max in Hf'. change (2 ^ 32) with 4294967296. lia. }
    pose proof (C05_checksum_ignored total cmd ([n2b 14; n2b 1] ++ be32 (spec_crc tl1))
                  ([n2b 14; n2b 1] ++ be32 (spec_crc tl2)) tl2) as Hc.
    rewrite <- !app_assoc in Hc. cbn [app] in Hc. unfold tl2 at 2 in Hc.
    rewrite <- !app_assoc. cbn [app].
    apply Hc; try (rewrite blen_app, be32_put, put_u32_len; reflexivity); try apply Hsz.
    + rewrite !blen_cons, be32_put, put_u32_len. reflexivity.
    + rewrite !blen_cons, be32_put, put_u32_len. reflexivity.
    + lia.
Qed.
Print Assumptions C05_corruption_delivered.

(** C06. *)
Theorem C06_crash_iff : forall src,
  decode src = Crash <->
  exists body rest, src = be32 (blen body) ++ body ++ rest /\ blen body < 2 ^ 32 /\ bad_body body.
Proof.
  assert (Hbody : forall body, blen body < u32_max -> (body_result body = None <-> bad_body body)).
  { intros body Hb. unfold body_result, bad_body. split.
    - destruct (get_be 4 body) as [[n b2]|] eqn:E1.
      2:{ intros _. left. apply get_be_none in E1. lia. }
      apply get_be_some in E1. destruct E1 as [-> Hn]. change (256 ^ N.of_nat 4) with (2 ^ 32) in Hn.
      destruct (take_n n b2) as [[cb after]|] eqn:E2.
      2:{ intros _. right; left. exists n, b2. rewrite be32_put. apply take_n_none in E2. auto. }
      apply take_n_some in E2. destruct E2 as [-> Hc].
      destruct (parse_msg M_BaseCommand cb) eqn:E3.
      2:{ intros _. right; right; left. exists cb, after. rewrite be32_put, Hc. auto. }
      destruct after as [|x after]; [discriminate|]. set (af := x :: after) in *.
      unfold payload_frame.
      destruct (get_be 2 af) as [[m1 a1]|] eqn:E4; [|discriminate]. apply get_be_some in E4. destruct E4 as [E4 H4].
      destruct (get_be 4 a1) as [[m2 a2]|] eqn:E5; [|discriminate]. apply get_be_some in E5. destruct E5 as [-> H5].
      destruct (get_be 4 a2) as [[m3 a3]|] eqn:E6; [|discriminate]. apply get_be_some in E6. destruct E6 as [-> H6].
      destruct (take_n m3 a3) as [[me da]|] eqn:E7; [|discriminate]. apply take_n_some in E7. destruct E7 as [-> H7].
      destruct (parse_msg M_MessageMetadata me) eqn:E8; [discriminate|]. intros _.
      right; right; right. exists cb, (be_bytes 2 m1 ++ be_bytes 4 m2), me, da.
      rewrite !be32_put, Hc, H7, E4.
      split; [now rewrite <- !app_assoc|]. split; [exact Hn|]. split; [|split; [exact H6|exact E8]].
      rewrite blen_app. unfold blen. rewrite !be_bytes_length. reflexivity.
    - intros [H|[(n & r & -> & Hn & Hr)|[(cmd & r & -> & Hc & Hp)|(cmd & six & meta & data & -> & Hc & Hs & Hm & Hp)]]].
      + replace (get_be 4 body) with (@None (N * bytes)); [reflexivity|]. symmetry. apply get_be_none. lia.
      + rewrite be32_put. unfold put_u32. rewrite get_be_put by exact Hn.
        replace (take_n n r) with (@None (bytes * bytes)); [reflexivity|]. symmetry. now apply take_n_none.
      + rewrite be32_put. unfold put_u32. rewrite get_be_put by exact Hc. rewrite take_n_app by reflexivity.
        now rewrite Hp.
      + rewrite !be32_put. unfold put_u32. rewrite get_be_put by exact Hc. rewrite take_n_app by reflexivity.
        destruct (parse_msg M_BaseCommand cmd); [|reflexivity].
        unfold blen in Hs.
        destruct six as [|a0 [|a1 [|a2 [|a3 [|a4 [|a5 [|a6 six]]]]]]]; cbn [length] in Hs; try lia.
        cbn [app]. unfold payload_frame.
        change (a0 :: a1 :: a2 :: a3 :: a4 :: a5 :: ?t) with ([a0; a1] ++ [a2; a3; a4; a5] ++ t).
        unfold get_be at 1. rewrite take_n_app by reflexivity.
        unfold get_be at 1. rewrite take_n_app by reflexivity.
        rewrite get_be_put by exact Hm. rewrite take_n_app by reflexivity. now rewrite Hp. }
  intros src. split.
  - intros H. apply decode_crash_split in H. destruct H as (body & rest & -> & Hb & Hr).
    exists body, rest. rewrite be32_put. repeat split; auto. now apply Hbody.
  - intros (body & rest & -> & Hb & Hr). rewrite be32_put, decode_frame by exact Hb.
    apply Hbody in Hr; [|exact Hb]. now rewrite Hr.
Qed.
Print Assumptions C06_crash_iff.

(** C06. Otherwise: wait exactly on an incomplete frame (buffer untouched), or
    return a command and remove exactly one frame. *)
Theorem C06_wait_iff : forall src,
  decode src = Wait <->
  (blen src < 4 \/ exists total r, total < 2 ^ 32 /\ src = be32 total ++ r /\ blen r < total).
Proof.
  intros src. split.
  - intros H. destruct (buffer_cases src) as [[_ [Hl|(t & r & Ht & -> & Hr)]]|(body & rest & -> & Hb)].
    + now left.
    + right. exists t, r. rewrite be32_put. auto.
    + rewrite decode_frame in H by exact Hb. destruct (body_result body); discriminate.
  - intros H. destruct (buffer_cases src) as [[Hw _]|(body & rest & -> & Hb)]; [exact Hw|].
    exfalso. destruct H as [H|(t & r & Ht & E & Hr)].
    + rewrite !blen_app, put_u32_len in H. lia.
    + rewrite be32_put in E.
      assert (E1 : get_be 4 (put_u32 (blen body) ++ body ++ rest) = get_be 4 (put_u32 t ++ r)) by now rewrite E.
      unfold put_u32 in E1. rewrite !get_be_put in E1 by assumption. injection E1 as Et Er. subst r.
      rewrite blen_app in Hr. lia.
Qed.
Print Assumptions C06_wait_iff.

Theorem C06_got_removes_one_frame : forall src mc rest,
  decode src = Got mc rest ->
  exists body, src = be32 (blen body) ++ body ++ rest /\ blen body < 2 ^ 32 /\ cmd_ok mc = true.
Proof.
  intros src mc rest H. apply decode_got_split in H. destruct H as (body & -> & Hb & E).
  exists body. rewrite be32_put. repeat split; auto.
  unfold body_result in E. destruct (get_be 4 body) as [[n b2]|]; [|discriminate].
  destruct (take_n n b2) as [[cb af]|]; [|discriminate].
  destruct (parse_msg M_BaseCommand cb) as [c|] eqn:Ec; [|discriminate].
  apply parse_msg_well_typed in Ec. unfold cmd_ok.
  destruct (match af with [] => None | _ => payload_frame af end) as [[me da]|].
  - destruct (parse_msg M_MessageMetadata me) as [md|] eqn:Em; [|discriminate].
    apply parse_msg_well_typed in Em. injection E as <-. cbn. now rewrite Ec, Em.
  - injection E as <-. cbn. now rewrite Ec.
Qed.
Print Assumptions C06_got_removes_one_frame.

(** A four-byte buffer announcing an empty frame already crashes. *)
Example C06_crash_example : decode (be32 0) = Crash.
Proof. vm_compute. reflexivity. Qed.
