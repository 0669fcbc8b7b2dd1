(** C61: acknowledging a message that was returned acknowledges, on the wire, the
    entry the broker delivered. *)
From Verif Require Import Bytes Errors Wire Proto ProtoFacts SimFacts Codec CodecFacts SpecFrame SpecCodec Address Message SpecMessage MessageFacts InboundFacts Client Consumer SpecConsumer PropProto PropCodec PropMessage PropConsumer.
Open Scope N_scope.

Lemma decode_parsed src mc rest : decode src = Got mc rest ->
  (exists b, parse_msg M_BaseCommand b = Some (mc_cmd mc)) /\ (forall p, mc_payload mc = Some p -> exists b, parse_msg M_MessageMetadata b = Some (pl_meta p)).
Proof.
  unfold decode. destruct (blen src <? 4); [discriminate|]. destruct (_ <=? _); [|discriminate].
  destruct (command_frame _) as [[cb after]|]; [|discriminate]. destruct (parse_msg M_BaseCommand cb) as [c|] eqn:P; [|discriminate].
  destruct (match after with [] => None | _ => payload_frame after end) as [[meta data]|].
  - destruct (parse_msg M_MessageMetadata meta) as [md|] eqn:Q; [|discriminate]. intros [= <- _]. cbn [mc_cmd mc_payload]. split; [exists cb; exact P|]. intros p [= <-]. exists meta. exact Q.
  - intros [= <- _]. cbn [mc_cmd mc_payload]. split; [exists cb; exact P|]. discriminate.
Qed.
(** A sub-message of a message that was parsed is itself in order. *)
Lemma get_m_in n fs x : get_m n fs = Some x -> In (n, PMsg x) fs.
Proof.
  unfold get_m. assert (H : forall fs acc, fold_left (fun acc p => if fst p =? n then match snd p with PMsg x => Some x | _ => acc end else acc) fs acc = Some x ->
    acc = Some x \/ In (n, PMsg x) fs).
  { clear. induction fs as [|[k v] fs IH]; intros acc H; [now left|]. cbn [fold_left fst snd] in H. destruct (IH _ H) as [X|X]; [|right; now right].
    destruct (N.eqb_spec k n); [|now left]. subst k. destruct v; auto. injection X as <-. right. now left. }
  intros X. destruct (H fs None X); [discriminate|assumption].
Qed.
Lemma sub_ok d m fs n f sub x : wt (S d) m fs = true -> initialized m fs = true -> find_field m n = Some f -> f_ty f = TMsg sub ->
  get_m n fs = Some x -> wt d sub x = true /\ initialized sub x = true.
Proof.
  intros W I F Ty G. apply get_m_in in G. split.
  - clear I. induction fs as [|[k v] fs IH]; [destruct G|]. apply wt_cons in W as (_ & W & V). destruct G as [G|G]; [|auto].
    injection G as -> ->. rewrite F, Ty in V. exact V.
  - unfold initialized in *. rewrite inited_msg in I. apply andb_true_iff in I as [_ I]. rewrite forallb_forall in I. specialize (I _ G).
    cbn [fst snd] in I. rewrite F, Ty in I. exact I.
Qed.
Lemma delivered_id src mc rest d : decode src = Got mc rest -> to_inbound mc = Ok (InMessage d) ->
  exists sub mid, get_m 9 (mc_cmd mc) = Some sub /\ get_m 2 sub = Some mid /\ mid_ok mid /\
    match d with DSingle _ w _ => w = mid | DBatch _ w l => w = mid /\ N.of_nat (length l) < 2 ^ 31 end.
Proof.
  intros D I. destruct (decode_parsed src mc rest D) as [[b P] Pm]. apply parse_msg_well_typed in P. unfold well_typed in P. apply andb_true_iff in P as [W In].
  assert (X : exists sub mid, get_m 9 (mc_cmd mc) = Some sub /\ get_m 2 sub = Some mid /\ match d with DSingle _ w _ => w = mid | DBatch _ w l => w = mid end).
  { pose proof I as J. apply to_inbound_means in J. inversion J; subst; do 2 eexists; (split; [eassumption|]); (split; [eassumption|reflexivity]). }
  destruct X as (sub & mid & G1 & G2 & Hd). exists sub, mid. split; auto. split; auto.
  change recursion_limit with (S 99) in W.
  destruct (find_field M_BaseCommand 9) as [f9|] eqn:F9; [|discriminate]. assert (T9 : f_ty f9 = TMsg M_CommandMessage) by (vm_compute in F9; injection F9 as <-; reflexivity).
  destruct (sub_ok 99 _ _ 9 f9 _ sub W In F9 T9 G1) as [W1 I1].
  destruct (find_field M_CommandMessage 2) as [f2|] eqn:F2; [|discriminate]. assert (T2 : f_ty f2 = TMsg M_MessageIdData) by (vm_compute in F2; injection F2 as <-; reflexivity).
  destruct (sub_ok 98 _ _ 2 f2 _ mid W1 I1 F2 T2 G2) as [W2 I2]. split; [now split|].
  destruct d as [c w data|c w l]; [exact Hd|]. split; [exact Hd|]. subst w. destruct mc as [cmd [[meta data]|]].
  - destruct (Pm _ eq_refl) as [mb Q]. cbn [pl_meta] in Q. exact (C17_parsed_batches_small mb data cmd meta c mid l Q I).
  - exfalso. apply to_inbound_means in I. inversion I; subst. discriminate.
Qed.
(** A frame arrives and yields messages. Acknowledging the i-th of them writes, in
    every build, a frame from which a peer decodes an individual acknowledgement by
    this consumer of exactly one id: the id the broker put into the delivery, and,
    if the delivery was a batch, with batch index i. *)
Theorem C61_ack_names_the_delivery : forall T (value : bytes -> option T) src rest mc d ms i m oc now id name c o c',
  decode src = Got mc rest -> to_inbound mc = Ok (InMessage d) -> unpack value d = Ok ms -> nth_error ms i = Some m ->
  id < 2 ^ 64 -> request_id c < 2 ^ 64 -> now < 2 ^ 64 -> blen (write_msg (cm_ack m)) < 2 ^ 29 ->
  build id name c (CAck (cm_ack m)) = (o, c') ->
  exists sub mid amc b ack mid',
    get_m 9 (mc_cmd mc) = Some sub /\ get_m 2 sub = Some mid /\
    to_cmd now o = Ok amc /\ encode oc amc = Ok b /\ (forall more, decode (b ++ more) = Got amc more) /\
    mc_payload amc = None /\ carries amc 10 10 ack /\ int_field 1 ack id /\ int_field 2 ack 0 /\ int_field 8 ack (request_id c) /\
    get_ms 3 ack = [mid'] /\
    match d with
    | DSingle _ _ _ => mid' = mid
    | DBatch _ _ _ => get_z 4 mid' = Some (Z.of_nat i) /\
        forall f, f <> 4 -> get_z f mid' = get_z f mid /\ get_b f mid' = get_b f mid /\ get_m f mid' = get_m f mid /\ get_ms f mid' = get_ms f mid
    end.
Proof.
  intros T value src rest mc d ms i m oc now id name c o c' D I U Nm Hid Hr Hn Hw B.
  destruct (delivered_id src mc rest d D I) as (sub & mid & G1 & G2 & Mk & Hd). cbn [build] in B. injection B as <- _.
  assert (Ma : mid_ok (cm_ack m) /\ match d with
    | DSingle _ _ _ => cm_ack m = mid
    | DBatch _ _ _ => get_z 4 (cm_ack m) = Some (Z.of_nat i) /\
        forall f, f <> 4 -> get_z f (cm_ack m) = get_z f mid /\ get_b f (cm_ack m) = get_b f mid /\ get_m f (cm_ack m) = get_m f mid /\ get_ms f (cm_ack m) = get_ms f mid end).
  { destruct d as [k w data|k w l].
    - subst w. destruct (C16_single_ack T value k mid data ms U) as (v & _ & ->). destruct i as [|i]; [injection Nm as <-|destruct i; discriminate]. auto.
    - destruct Hd as [-> Hl]. split; [|exact (C17_batch_ack_ids T value k mid l ms i m U Hl Nm)].
      apply C17_unpack_iff in U. cbn in U. destruct U as [Ul U]. assert (Li : (i < length l)%nat) by (rewrite <- Ul; apply nth_error_Some; congruence).
      destruct (nth_error l i) as [p|] eqn:Np; [|apply nth_error_None in Np; lia]. destruct (U i m p Nm Np) as [_ ->]. now apply C17_ack_is_sendable. }
  destruct Ma as [Mo Me].
  destruct (C10_requests_reach_the_wire oc now (OAck [mk_ack id (cm_ack m) (request_id c)])) as (amc & b & T1 & T2 & T3 & T4).
  { constructor; [|constructor]. cbn. unfold u64. auto. }
  { exact Hn. }
  { cbn [req_weight map sum fold_right ak_mid]. change (2 ^ 30) with 1073741824. change (2 ^ 29) with 536870912 in Hw. lia. }
  { discriminate. }
  cbn [denotes] in T4. destruct T4 as (P & s & a & Ha & Ca & F1 & F8 & F2 & F3). cbn in Ha. injection Ha as <-. cbn in F2, F3, F1, F8.
  exists sub, mid, amc, b, s, (cm_ack m). repeat (split; [assumption|]). exact Me.
Qed.
Print Assumptions C61_ack_names_the_delivery.
(** So an acknowledgement determines the message: equal acknowledged ids belong to
    deliveries with equal ledger and entry, and to equal places in a batch. *)
Theorem C61_ack_determines_the_message : forall T (value : bytes -> option T) src rest mc d ms i m src2 rest2 mc2 d2 ms2 i2 m2,
  decode src = Got mc rest -> to_inbound mc = Ok (InMessage d) -> unpack value d = Ok ms -> nth_error ms i = Some m ->
  decode src2 = Got mc2 rest2 -> to_inbound mc2 = Ok (InMessage d2) -> unpack value d2 = Ok ms2 -> nth_error ms2 i2 = Some m2 ->
  cm_ack m = cm_ack m2 ->
  exists sub mid sub2 mid2, get_m 9 (mc_cmd mc) = Some sub /\ get_m 2 sub = Some mid /\ get_m 9 (mc_cmd mc2) = Some sub2 /\ get_m 2 sub2 = Some mid2 /\
    get_z 1 mid = get_z 1 mid2 /\ get_z 2 mid = get_z 2 mid2 /\ get_z 3 mid = get_z 3 mid2 /\
    match d, d2 with DBatch _ _ _, DBatch _ _ _ => i = i2 | _, _ => True end.
Proof.
  intros T value src rest mc d ms i m src2 rest2 mc2 d2 ms2 i2 m2 D I U Nm D2 I2 U2 Nm2 Eq.
  assert (G : forall src rest mc d ms i m, decode src = Got mc rest -> to_inbound mc = Ok (InMessage d) -> unpack value d = Ok ms -> nth_error ms i = Some m ->
    exists sub mid, get_m 9 (mc_cmd mc) = Some sub /\ get_m 2 sub = Some mid /\ get_z 1 (cm_ack m) = get_z 1 mid /\ get_z 2 (cm_ack m) = get_z 2 mid /\ get_z 3 (cm_ack m) = get_z 3 mid /\
      match d with DBatch _ _ _ => get_z 4 (cm_ack m) = Some (Z.of_nat i) | _ => True end).
  { clear. intros src rest mc d ms i m D I U Nm. destruct (delivered_id src mc rest d D I) as (sub & mid & G1 & G2 & Mk & Hd). exists sub, mid. split; auto. split; auto.
    destruct d as [k w data|k w l].
    - subst w. destruct (C16_single_ack T value k mid data ms U) as (v & _ & ->). destruct i as [|i]; [injection Nm as <-|destruct i; discriminate]. auto.
    - destruct Hd as [-> Hl]. destruct (C17_batch_ack_ids T value k mid l ms i m U Hl Nm) as [X Y].
      split; [apply Y; discriminate|]. split; [apply Y; discriminate|]. split; [apply Y; discriminate|]. exact X. }
  destruct (G _ _ _ _ _ _ _ D I U Nm) as (sub & mid & A1 & A2 & A3 & A4 & A5 & A6).
  destruct (G _ _ _ _ _ _ _ D2 I2 U2 Nm2) as (sub2 & mid2 & B1 & B2 & B3 & B4 & B5 & B6).
  rewrite Eq in *. exists sub, mid, sub2, mid2. repeat (split; [congruence|]). destruct d, d2; auto. rewrite A6 in B6. injection B6 as B6. lia.
Qed.
Print Assumptions C61_ack_determines_the_message.
(** The hypotheses are met by a delivered batch of two, its second message. *)
Definition k_src : bytes := match encode true (mk_cmd (base 9 9 [(1, PInt 4); (2, PMsg [(1, PInt 7); (2, PInt 8)])])
  (Some (mk_payload [(1, PBytes (str "p")); (2, PInt 0); (3, PInt 0); (11, PInt 2)] (batch_part (str "a") ++ batch_part (str "b"))))) with Ok b => b | _ => [] end.
Example C61_meets : exists mc d ms m, decode k_src = Got mc [] /\ to_inbound mc = Ok (InMessage d) /\ unpack (fun b => Some b) d = Ok ms /\
  nth_error ms 1 = Some m /\ cm_payload m = str "b" /\ blen (write_msg (cm_ack m)) < 2 ^ 29 /\ get_z 4 (cm_ack m) = Some 1%Z.
Proof.
  destruct (decode k_src) as [|mc rest|] eqn:D; try (vm_compute in D; discriminate).
  destruct (to_inbound mc) as [x|e|] eqn:I; [|vm_compute in D; injection D as <- <-; vm_compute in I; discriminate|vm_compute in D; injection D as <- <-; vm_compute in I; discriminate].
  vm_compute in D. injection D as <- <-. vm_compute in I. injection I as <-. do 4 eexists. repeat (split; [reflexivity|]). split; vm_compute; reflexivity.
Qed.
