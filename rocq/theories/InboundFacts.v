(** Facts about incoming commands and batches, used by PropMessage.v. *)
From Verif Require Import Bytes Errors Utf8 Wire Proto ProtoFacts SimFacts SpecProto Codec SpecFrame SpecCodec CodecFacts
  Address Message SpecMessage MessageFacts.
Open Scope N_scope.

Lemma cmd_type_is mc ty : type_is mc ty -> cmd_type (mc_cmd mc) = ty.
Proof.
  intros [Hz Hin]. unfold cmd_type, get_e. rewrite Hz.
  replace (existsb (Z.eqb ty) (enum_values E_BaseCommand_Type)) with true; [reflexivity|].
  symmetry. apply existsb_exists. exists ty. split; [exact Hin|apply Z.eqb_refl].
Qed.
Lemma cmd_type_inv mc ty : cmd_type (mc_cmd mc) = ty -> ty <> 2%Z -> type_is mc ty.
Proof.
  unfold cmd_type, get_e. intros H Hn. destruct (get_z 1 (mc_cmd mc)) as [z|] eqn:E; [|cbn in H; congruence].
  destruct (existsb (Z.eqb z) (enum_values E_BaseCommand_Type)) eqn:Ex; [|cbn in H; congruence].
  subst z. apply existsb_exists in Ex. destruct Ex as (y & Hy & Hz). apply Z.eqb_eq in Hz. subst y. split; auto.
Qed.

(** ** Required integer fields are present after parsing *)
Lemma get_z_present d m n f fs : find_field m n = Some f -> is_int (f_ty f) = true ->
  wt d m fs = true -> present n fs = true -> exists z, get_z n fs = Some z.
Proof.
  intros Hf Hi. unfold get_z.
  assert (H : forall a, wt d m fs = true -> (a <> None \/ present n fs = true) ->
     exists z, fold_left (fun acc p => if fst p =? n then match snd p with PInt z => Some z | _ => acc end else acc) fs a = Some z).
  { induction fs as [|[k v] fs IH]; intros a Hw Ho.
    - cbn. destruct Ho as [Ho|Ho]; [|discriminate]. destruct a; [eauto|contradiction].
    - apply wt_cons in Hw. destruct Hw as (Hk & Hr & Hv). cbn [fold_left fst snd]. apply IH; [exact Hr|].
      cbn [present existsb fst snd] in Ho.
      destruct (N.eqb_spec k n) as [->|Hne]; cbn [andb orb] in Ho.
      + rewrite Hf in Hv. destruct v as [z|b|s|w].
        * left. discriminate.
        * destruct (f_ty f); discriminate.
        * destruct (f_ty f); discriminate.
        * exact Ho.
      + exact Ho. }
  intros Hw Hp. apply H; auto.
Qed.
Lemma parsed_required m b fs n f t : parse_msg m b = Some fs -> find_field m n = Some f ->
  f_card f = Req -> f_ty f = t -> is_int t = true -> exists z, get_z n fs = Some z.
Proof.
  intros Hp Hf Hc Ht Hi. apply parse_msg_well_typed in Hp. unfold well_typed in Hp. apply andb_true_iff in Hp.
  destruct Hp as [Hw Hin]. eapply get_z_present; eauto; [now rewrite Ht|].
  unfold initialized in Hin. rewrite inited_msg in Hin. apply andb_true_iff in Hin. destruct Hin as [Hr _].
  unfold required_ok in Hr. rewrite forallb_forall in Hr.
  destruct (find_field_in m n f Hf) as [Hin Hn]. specialize (Hr f Hin). rewrite Hc, Hn in Hr. exact Hr.
Qed.

(** ** Batches *)
Lemma batched_payload_some i x r : batched_payload i = Some (x, r) ->
  exists mb md n d, parse_msg M_SingleMessageMetadata mb = Some md /\ get_z 3 md = Some n /\
    Z.of_N (blen d) = n /\ blen mb < 2 ^ 32 /\ x = mk_batched md d /\
    i = be_bytes 4 (blen mb) ++ mb ++ d ++ r.
Proof.
  unfold batched_payload. destruct (get_be 4 i) as [[k i1]|] eqn:E1; [|discriminate].
  apply get_be_some in E1. destruct E1 as [-> Hk].
  destruct (take_n k i1) as [[mb i2]|] eqn:E2; [|discriminate]. apply take_n_some in E2. destruct E2 as [-> Hl].
  destruct (parse_msg M_SingleMessageMetadata mb) as [md|] eqn:E3; [|discriminate].
  destruct (parsed_required _ _ _ 3 _ _ E3 eq_refl eq_refl eq_refl eq_refl) as [n Hn].
  rewrite Hn. cbn [z_or]. destruct (Z.leb_spec 0 n) as [H0|H0]; [|discriminate].
  destruct (take_n (Z.to_N n) i2) as [[d i3]|] eqn:E4; [|discriminate]. apply take_n_some in E4. destruct E4 as [-> Hd].
  intros E. injection E as <- <-. subst k. exists mb, md, n, d. repeat split; auto. lia.
Qed.
Lemma batched_payload_read mb md n d r : parse_msg M_SingleMessageMetadata mb = Some md -> get_z 3 md = Some n ->
  Z.of_N (blen d) = n -> blen mb < 2 ^ 32 ->
  batched_payload (be_bytes 4 (blen mb) ++ mb ++ d ++ r) = Some (mk_batched md d, r).
Proof.
  intros Hp Hn Hd Hl. unfold batched_payload. rewrite get_be_put by exact Hl.
  rewrite take_n_app by reflexivity. rewrite Hp, Hn. cbn [z_or].
  replace (0 <=? n)%Z with true by lia. rewrite take_n_app by lia. reflexivity.
Qed.
Lemma count_batched_iff n i l r : count_batched n i = Some (l, r) <-> (batch_reads i l r /\ length l = n).
Proof.
  revert i l r. induction n as [|n IH]; intros i l r; cbn [count_batched].
  - split.
    + intros E. injection E as <- <-. split; [constructor|reflexivity].
    + intros [H Hl]. destruct l; [|discriminate]. inversion H. reflexivity.
  - split.
    + destruct (batched_payload i) as [[x i1]|] eqn:E1; [|discriminate].
      destruct (count_batched n i1) as [[xs i2]|] eqn:E2; [|discriminate].
      intros E. injection E as <- <-. apply IH in E2. destruct E2 as [H2 L2].
      apply batched_payload_some in E1. destruct E1 as (mb & md & k & d & H3 & H4 & H5 & H6 & -> & ->).
      split; [econstructor; eauto|cbn; lia].
    + intros [H Hl]. destruct l as [|x l]; [discriminate|]. inversion H; subst.
      erewrite batched_payload_read by (first [eassumption|reflexivity]).
      cbn in Hl. replace (count_batched n b) with (Some (l, r)); [reflexivity|]. symmetry. apply IH. split; [assumption|lia].
Qed.
Lemma batch_reads_det i l r l' r' : batch_reads i l r -> batch_reads i l' r' -> length l = length l' -> l = l' /\ r = r'.
Proof.
  intros H H' E. assert (A : count_batched (length l) i = Some (l, r)) by (apply count_batched_iff; auto).
  assert (B : count_batched (length l) i = Some (l', r')) by (apply count_batched_iff; auto). split; congruence.
Qed.

(** ** Classification *)
Ltac by_type mc E :=
  unfold to_inbound; destruct (cmd_type (mc_cmd mc)) as [|p|p] eqn:E; try discriminate;
  do 6 (try (destruct p as [p|p|]; try discriminate)).

Lemma to_inbound_means mc i : to_inbound mc = Ok i -> means mc i.
Proof.
  by_type mc E; intros H; apply cmd_type_inv in E; try discriminate;
    try (injection H as <-; constructor; assumption).
  - (* 7 *) destruct (get_m 7 (mc_cmd mc)) as [r|] eqn:E1; [|discriminate].
    destruct (get_m 3 r) eqn:E2; [|discriminate]. injection H as <-. now constructor.
  - (* 13 *) destruct (get_m 13 (mc_cmd mc)) as [r|] eqn:E1; [|discriminate]. injection H as <-. now constructor.
  - (* 17 *) destruct (get_m 17 (mc_cmd mc)) as [r|] eqn:E1; [|discriminate]. injection H as <-. now constructor.
  - (* 9 *) unfold to_delivery in H.
    destruct (get_m 9 (mc_cmd mc)) as [m|] eqn:E1; cbn [m_or_empty] in H; [|discriminate].
    destruct (get_m 2 m) as [mid|] eqn:E2; [|discriminate].
    destruct (mc_payload mc) as [p|] eqn:E3; [|discriminate].
    unfold num_in_batch in H. destruct (get_z 11 (pl_meta p)) as [n|] eqn:E4; cbn [z_or] in H.
    + destruct (Z.ltb_spec 1 n) as [Hn|Hn].
      * unfold parse_batched_message in H. destruct (count_batched (N.to_nat (Z.to_N n)) (pl_data p)) as [[l rest]|] eqn:E5; [|discriminate].
        cbn [omap obind] in H. injection H as <-. apply count_batched_iff in E5. destruct E5 as [E5 El].
        eapply M_batch; eauto. lia.
      * cbn [omap obind] in H. injection H as <-. eapply M_single; eauto.
    + cbn [omap obind] in H. injection H as <-. eapply M_single; eauto.
  - (* 38 *) destruct (get_m 38 (mc_cmd mc)) as [r|] eqn:E1; [|discriminate]. injection H as <-. now constructor.
  - (* 24 *) destruct (get_m 24 (mc_cmd mc)) as [r|] eqn:E1; [|discriminate]. injection H as <-. constructor; auto.
    unfold get_e. destruct (get_z 3 r) as [z|] eqn:E3.
    + destruct (Z.eq_dec z 1) as [->|N1]; [left; split; reflexivity|].
      destruct (Z.eq_dec z 2) as [->|N2]; [right; left; split; reflexivity|].
      right; right. split; [|split; congruence].
      destruct (existsb (Z.eqb z) (enum_values E_CommandLookupTopicResponse_LookupType)) eqn:Ex; [|reflexivity].
      apply existsb_exists in Ex. destruct Ex as (y & Hy & Hz). apply Z.eqb_eq in Hz. subst y.
      cbn in Hy. destruct Hy as [<-|[<-|[<-|[]]]]; congruence.
    + right; right. split; [reflexivity|split; congruence].
Qed.

Lemma means_to_inbound mc i : means mc i -> to_inbound mc = Ok i.
Proof.
  intros H. destruct H; match goal with H : type_is _ _ |- _ => apply cmd_type_is in H; unfold to_inbound; rewrite H end;
    cbn [omap obind]; try reflexivity.
  - now rewrite H0, H1.
  - now rewrite H0.
  - rewrite H0. do 3 f_equal. unfold get_e.
    destruct H1 as [[-> E]|[[-> E]|[-> [E1 E2]]]].
    + now rewrite E.
    + now rewrite E.
    + destruct (get_z 3 r) as [z|]; [|reflexivity].
      destruct (existsb (Z.eqb z) (enum_values E_CommandLookupTopicResponse_LookupType)); [|reflexivity].
      destruct z as [|p|p]; try reflexivity. destruct p as [p|p|]; try reflexivity; [|congruence].
      destruct p; try reflexivity. congruence.
  - now rewrite H0.
  - now rewrite H0.
  - unfold to_delivery. rewrite H0. cbn [m_or_empty]. rewrite H1, H2. unfold num_in_batch.
    destruct H3 as [->|(n & -> & Hn)]; [reflexivity|]. cbn [z_or].
    destruct (Z.ltb_spec 1 n); [lia|reflexivity].
  - unfold to_delivery. rewrite H0. cbn [m_or_empty]. rewrite H1, H2. unfold num_in_batch. rewrite H3. cbn [z_or].
    destruct (Z.ltb_spec 1 n); [|lia]. unfold parse_batched_message.
    replace (count_batched (N.to_nat (Z.to_N n)) (pl_data p)) with (Some (l, rest)); [reflexivity|].
    symmetry. apply count_batched_iff. split; [assumption|lia].
Qed.

Lemma to_inbound_panic mc : to_inbound mc = Panic <-> broken mc.
Proof.
  split.
  - by_type mc E; intros H; apply cmd_type_inv in E; try discriminate; unfold broken.
    + left. split; [exact E|]. destruct (get_m 7 (mc_cmd mc)) as [r|]; [|now left]. right. exists r. split; [reflexivity|].
      destruct (get_m 3 r); [discriminate|reflexivity].
    + do 3 right. left. split; [exact E|]. destruct (get_m 13 (mc_cmd mc)); [discriminate|reflexivity].
    + do 4 right. left. split; [exact E|]. destruct (get_m 17 (mc_cmd mc)); [discriminate|reflexivity].
    + do 5 right. split; [exact E|]. unfold to_delivery in H. destruct (get_m 9 (mc_cmd mc)) as [m|]; [|now left].
      right. cbn [m_or_empty] in H. destruct (mc_payload mc) as [p|]; [|now left]. right. exists m. split; [reflexivity|].
      destruct (get_m 2 m); [|reflexivity]. exfalso.
      destruct (1 <? num_in_batch (pl_meta p))%Z; [|discriminate]. unfold parse_batched_message in H.
      destruct (count_batched _ _) as [[? ?]|]; discriminate.
    + right; left. split; [exact E|]. destruct (get_m 38 (mc_cmd mc)); [discriminate|reflexivity].
    + right; right; left. split; [exact E|]. destruct (get_m 24 (mc_cmd mc)); [discriminate|reflexivity].
  - intros [[E H]|[[E H]|[[E H]|[[E H]|[[E H]|[E H]]]]]]; apply cmd_type_is in E; unfold to_inbound; rewrite E.
    + destruct H as [->|(r & -> & ->)]; reflexivity.
    + now rewrite H.
    + now rewrite H.
    + now rewrite H.
    + now rewrite H.
    + unfold to_delivery. destruct H as [->|[->|(m & -> & Hm)]]; cbn [m_or_empty].
      * reflexivity.
      * destruct (get_m 2 _); reflexivity.
      * now rewrite Hm.
Qed.

Lemma to_inbound_unsupported mc : to_inbound mc = Err UnsupportedCommand <->
  ~ exists ty, type_is mc ty /\ supported ty.
Proof.
  split.
  - intros H (ty & Ht & Hs). apply cmd_type_is in Ht. unfold to_inbound in H. rewrite Ht in H.
    unfold supported in Hs. cbn [In] in Hs.
    destruct Hs as [<-|[<-|[<-|[<-|[<-|[<-|[<-|[<-|[<-|[<-|[]]]]]]]]]]]; try discriminate.
    + destruct (get_m 7 (mc_cmd mc)) as [r|]; [destruct (get_m 3 r)|]; discriminate.
    + unfold to_delivery in H. destruct (get_m 2 _); [|discriminate]. destruct (mc_payload mc) as [p|]; [|discriminate].
      destruct (1 <? num_in_batch (pl_meta p))%Z; [|discriminate]. unfold parse_batched_message in H.
      destruct (count_batched _ _) as [[? ?]|]; discriminate.
    + destruct (get_m 13 (mc_cmd mc)); discriminate.
    + destruct (get_m 17 (mc_cmd mc)); discriminate.
    + destruct (get_m 24 (mc_cmd mc)); discriminate.
    + destruct (get_m 38 (mc_cmd mc)); discriminate.
  - intros H. unfold to_inbound. destruct (cmd_type (mc_cmd mc)) as [|p|p] eqn:E; try reflexivity.
    do 6 (try (destruct p as [p|p|]; try reflexivity));
    exfalso; apply H; eexists; (split; [apply cmd_type_inv; [exact E|discriminate]|unfold supported; cbn; tauto]).
Qed.

Lemma to_inbound_err mc e : to_inbound mc = Err e -> e = UnsupportedCommand \/ (e = DecodeFailed /\ type_is mc 9).
Proof.
  by_type mc E; intros H; try (injection H as <-; now left); try apply cmd_type_inv in E; try discriminate.
  - destruct (get_m 7 (mc_cmd mc)) as [r|]; [destruct (get_m 3 r)|]; discriminate.
  - destruct (get_m 13 (mc_cmd mc)); discriminate.
  - destruct (get_m 17 (mc_cmd mc)); discriminate.
  - right. split; [|exact E]. unfold to_delivery in H. destruct (get_m 2 _); [|discriminate]. destruct (mc_payload mc) as [p|]; [|discriminate].
    destruct (1 <? num_in_batch (pl_meta p))%Z; [|discriminate]. unfold parse_batched_message in H.
    destruct (count_batched _ _) as [[? ?]|]; [discriminate|]. cbn in H. congruence.
  - destruct (get_m 38 (mc_cmd mc)); discriminate.
  - destruct (get_m 24 (mc_cmd mc)); discriminate.
Qed.

(** ** Batch round trip *)
Lemma single_md_wt d : blen d < 2147483648 ->
  parse_msg M_SingleMessageMetadata (write_msg [(3, PInt (Z.of_N (blen d)))]) = Some [(3, PInt (Z.of_N (blen d)))]
  /\ blen (write_msg [(3, PInt (Z.of_N (blen d)))]) <= 20.
Proof.
  intros H. assert (Hs : blen (write_msg [(3, PInt (Z.of_N (blen d)))]) <= 20).
  { rewrite <- compute_size_ok. bound_size. lia. }
  split; [|exact Hs]. apply parse_write_msg.
  - unfold well_typed. apply andb_true_iff. split; [|reflexivity].
    unfold recursion_limit. eapply wt_intro; [reflexivity|reflexivity| |reflexivity].
    change (i32_ok (Z.of_N (blen d)) = true). unfold i32_ok. lia.
  - unfold u64_max. lia.
Qed.
Lemma batch_part_reads ds rest : Forall (fun d => blen d < 2147483648) ds ->
  exists l, batch_reads (concat (map batch_part ds) ++ rest) l rest /\ map bp_data l = ds.
Proof.
  intros H. induction H as [|d ds Hd _ (l & IH & Hl)].
  - exists []. split; [constructor|reflexivity].
  - destruct (single_md_wt d Hd) as [Hp Hs].
    exists (mk_batched [(3, PInt (Z.of_N (blen d)))] d :: l). split; [|cbn; now rewrite Hl].
    cbn [map concat]. unfold batch_part at 1. rewrite <- !app_assoc.
    replace [n2b (blen (write_msg [(3, PInt (Z.of_N (blen d)))]) / 16777216);
      n2b (blen (write_msg [(3, PInt (Z.of_N (blen d)))]) / 65536);
      n2b (blen (write_msg [(3, PInt (Z.of_N (blen d)))]) / 256);
      n2b (blen (write_msg [(3, PInt (Z.of_N (blen d)))]))] with
      (be_bytes 4 (blen (write_msg [(3, PInt (Z.of_N (blen d)))]))).
    2:{ symmetry. apply be32_put. }
    eapply B_cons; [exact Hp|reflexivity|reflexivity| |exact IH].
    change (2 ^ 32) with 4294967296. lia.
Qed.

(** Any frame a conforming peer writes decodes to its parts. *)
Lemma frame_decode_raw cb cmd meta md data rest :
  parse_msg M_BaseCommand cb = Some cmd -> parse_msg M_MessageMetadata meta = Some md ->
  frame_total cb (Some (meta, data)) < u32_max ->
  decode (frame_bytes cb (Some (meta, data)) ++ rest) = Got (mk_cmd cmd (Some (mk_payload md data))) rest.
Proof.
  intros Hc Hm Ht. unfold frame_bytes.
  set (body := be32 (blen cb) ++ cb ++ section_bytes (Some (meta, data))).
  assert (Hbl : blen body = frame_total cb (Some (meta, data))).
  { unfold body, frame_total, section_bytes. rewrite be32_put, !blen_app, put_u32_len.
    rewrite !blen_cons, !be32_put, !blen_app, !put_u32_len. lia. }
  rewrite be32_put, <- app_assoc, decode_frame by lia.
  unfold body_result, body. rewrite be32_put. unfold put_u32. unfold frame_total in Ht.
  rewrite get_be_put by (change (256 ^ N.of_nat 4) with u32_max; lia).
  rewrite take_n_app by reflexivity. rewrite Hc. cbn [section_bytes].
  change (n2b 14 :: n2b 1 :: ?x) with (put_u16 0x0e01 ++ x).
  set (after := put_u16 0x0e01 ++ be32 (spec_crc (be32 (blen meta) ++ meta ++ data)) ++ be32 (blen meta) ++ meta ++ data).
  assert (Hpf : payload_frame after = Some (meta, data)).
  { unfold payload_frame, after, put_u16. rewrite get_be_put by reflexivity.
    rewrite !be32_put. unfold put_u32.
    rewrite get_be_put.
    2:{ change (256 ^ N.of_nat 4) with u32_max. rewrite <- CrcFacts.crc32c_spec. apply Crc.crc32c_bound. }
    rewrite get_be_put by (change (256 ^ N.of_nat 4) with u32_max; lia).
    now rewrite take_n_app. }
  change (match after with [] => None | _ => payload_frame after end) with (payload_frame after).
  rewrite Hpf, Hm. reflexivity.
Qed.

(** ** Commands that say the same thing are understood the same (C09) *)
Lemma to_inbound_same fs fs' p p' :
  same_msg recursion_limit M_BaseCommand fs fs' ->
  match p, p' with
  | None, None => True
  | Some x, Some x' => same_msg recursion_limit M_MessageMetadata (pl_meta x) (pl_meta x') /\ pl_data x = pl_data x'
  | _, _ => False
  end ->
  same_outcome (to_inbound (mk_cmd fs p)) (to_inbound (mk_cmd fs' p')).
Proof.
  intros Hs Hp. unfold recursion_limit in *.
  assert (Hin : forall n f, find_field M_BaseCommand n = Some f -> In f (fields M_BaseCommand))
    by (intros n f Hf; apply (find_field_in _ _ _ Hf)).
  assert (Ht : cmd_type fs = cmd_type fs').
  { unfold cmd_type. exact (same_get_e _ _ _ _ (mkf 1 Req (TEnum E_BaseCommand_Type)) Hs (Hin 1 _ eq_refl) E_BaseCommand_Type). }
  assert (Hm : forall k sub, find_field M_BaseCommand k = Some (mkf k Opt (TMsg sub)) ->
     opt_same 100 sub (get_m k fs) (get_m k fs')).
  { intros k sub Hf. exact (same_get_m _ _ _ _ _ Hs (Hin _ _ Hf) sub eq_refl). }
  unfold to_inbound. cbn [mc_cmd]. rewrite <- Ht.
  destruct (cmd_type fs) as [|q|q]; try reflexivity.
  do 6 (try (destruct q as [q|q|]; try reflexivity)).
  - (* 7 *) specialize (Hm 7 _ eq_refl). unfold opt_same in Hm. cbn [pred] in Hm.
    destruct (get_m 7 fs) as [r|], (get_m 7 fs') as [r'|]; try contradiction; [|exact I].
    assert (Hi : forall f, In f (fields M_CommandSendReceipt) -> In f (fields M_CommandSendReceipt)) by auto.
    pose proof (same_get_u 99 _ r r' (mkf 1 Req TU64) Hm (or_introl eq_refl)) as H1.
    pose proof (same_get_u 99 _ r r' (mkf 2 Req TU64) Hm (or_intror (or_introl eq_refl))) as H2.
    pose proof (same_get_m 99 _ r r' (mkf 3 Opt (TMsg M_MessageIdData)) Hm (or_intror (or_intror (or_introl eq_refl))) _ eq_refl) as H3.
    cbn [f_num] in H1, H2, H3. unfold opt_same in H3. cbn [pred] in H3.
    destruct (get_m 3 r), (get_m 3 r'); try contradiction; [|exact I]. cbn. rewrite H1, H2. auto.
  - (* 13 *) specialize (Hm 13 _ eq_refl). unfold opt_same in Hm. cbn [pred] in Hm.
    destruct (get_m 13 fs) as [r|], (get_m 13 fs') as [r'|]; try contradiction; [|exact I].
    pose proof (same_get_u 99 _ r r' (mkf 1 Req TU64) Hm (or_introl eq_refl)) as H1. cbn [f_num] in H1. cbn. now rewrite H1.
  - (* 17 *) specialize (Hm 17 _ eq_refl). unfold opt_same in Hm. cbn [pred] in Hm.
    destruct (get_m 17 fs) as [r|], (get_m 17 fs') as [r'|]; try contradiction; [|exact I].
    pose proof (same_get_u 99 _ r r' (mkf 1 Req TU64) Hm (or_introl eq_refl)) as H1.
    pose proof (same_get_b 99 _ r r' (mkf 2 Req TStr) Hm (or_intror (or_introl eq_refl))) as H2.
    cbn [f_num] in H1, H2. cbn. now rewrite H1, H2.
  - (* 9 *) specialize (Hm 9 _ eq_refl). unfold opt_same in Hm. cbn [pred] in Hm.
    unfold to_delivery. cbn [mc_cmd mc_payload].
    assert (Hm' : same_msg 99 M_CommandMessage (m_or_empty (get_m 9 fs)) (m_or_empty (get_m 9 fs'))).
    { destruct (get_m 9 fs), (get_m 9 fs'); try contradiction; [exact Hm|apply same_msg_refl]. }
    set (m := m_or_empty (get_m 9 fs)) in *. set (m' := m_or_empty (get_m 9 fs')) in *.
    pose proof (same_get_u 99 _ m m' (mkf 1 Req TU64) Hm' (or_introl eq_refl)) as H1.
    pose proof (same_get_m 99 _ m m' (mkf 2 Req (TMsg M_MessageIdData)) Hm' (or_intror (or_introl eq_refl)) _ eq_refl) as H2.
    cbn [f_num] in H1, H2. unfold opt_same in H2. cbn [pred] in H2.
    destruct (get_m 2 m), (get_m 2 m'); try contradiction; [|exact I].
    destruct p as [x|], p' as [x'|]; try contradiction; [|exact I].
    destruct Hp as [Hpm Hpd].
    assert (Hn : num_in_batch (pl_meta x) = num_in_batch (pl_meta x')).
    { unfold num_in_batch. f_equal.
      refine (same_get_z _ _ _ _ (mkf 11 Opt TI32) Hpm _). apply (find_field_in M_MessageMetadata 11). reflexivity. }
    rewrite <- Hn, <- Hpd. destruct (1 <? num_in_batch (pl_meta x))%Z.
    + destruct (parse_batched_message _ _); cbn; auto.
    + cbn. auto.
  - (* 38 *) specialize (Hm 38 _ eq_refl). unfold opt_same in Hm. cbn [pred] in Hm.
    destruct (get_m 38 fs) as [r|], (get_m 38 fs') as [r'|]; try contradiction; [|exact I].
    assert (H1 : get_u 1 r = get_u 1 r').
    { refine (same_get_u 99 _ r r' (mkf 1 Req TU64) Hm _). apply (find_field_in M_CommandAckResponse 1). reflexivity. }
    assert (H2 : get_u 6 r = get_u 6 r').
    { refine (same_get_u 99 _ r r' (mkf 6 Opt TU64) Hm _). apply (find_field_in M_CommandAckResponse 6). reflexivity. }
    cbn. now rewrite H1, H2.
  - (* 24 *) specialize (Hm 24 _ eq_refl). unfold opt_same in Hm. cbn [pred] in Hm.
    destruct (get_m 24 fs) as [r|], (get_m 24 fs') as [r'|]; try contradiction; [|exact I].
    assert (Hf : forall n f, find_field M_CommandLookupTopicResponse n = Some f -> In f (fields M_CommandLookupTopicResponse))
      by (intros n f Hf; apply (find_field_in _ _ _ Hf)).
    pose proof (same_get_b 99 _ r r' _ Hm (Hf 1 _ eq_refl)) as H1.
    pose proof (same_get_b 99 _ r r' _ Hm (Hf 2 _ eq_refl)) as H2.
    pose proof (same_get_e 99 _ r r' _ Hm (Hf 3 _ eq_refl) E_CommandLookupTopicResponse_LookupType) as H3.
    pose proof (same_get_u 99 _ r r' _ Hm (Hf 4 _ eq_refl)) as H4.
    pose proof (same_get_u 99 _ r r' _ Hm (Hf 5 _ eq_refl)) as H5.
    pose proof (same_get_u 99 _ r r' _ Hm (Hf 8 _ eq_refl)) as H8.
    cbn [f_num] in *. cbn [same_outcome same_event]. now rewrite H1, H2, H3, H4, H5, H8.
Qed.
