(** Facts about requests and events, used by PropMessage.v. *)
From Verif Require Import Bytes Errors Utf8 Wire Proto ProtoFacts SimFacts Crc CrcFacts Codec SpecFrame SpecCodec CodecFacts
  Address Message SpecMessage.
Open Scope N_scope.

(** ** Sizes *)
Lemma varint_size_le n : varint_size n <= 10.
Proof.
  assert (H : forall f k, varint_size_go f k <= N.of_nat f).
  { induction f as [|f IH]; intros k; [cbn; lia|]. cbn [varint_size_go].
    destruct (k <? 128) eqn:E; [|specialize (IH (k / 128))]; lia. }
  apply (H 10%nat).
Qed.
Lemma cs_cons n v fs : compute_size ((n, v) :: fs) <= 10 + val_size v + compute_size fs.
Proof. cbn [compute_size]. pose proof (varint_size_le (tag n (to_raw v))). lia. Qed.
Lemma cs_app a b : compute_size (a ++ b) = compute_size a + compute_size b.
Proof. rewrite !compute_size_ok, write_msg_app, blen_app. reflexivity. Qed.
Lemma vs_int z : val_size (PInt z) <= 10.
Proof. cbn [val_size]. apply varint_size_le. Qed.
Lemma vs_bytes b : val_size (PBytes b) <= 10 + blen b.
Proof. cbn [val_size]. pose proof (varint_size_le (blen b)). lia. Qed.
Lemma vs_msg fs : val_size (PMsg fs) <= 10 + compute_size fs.
Proof. rewrite val_size_msg. pose proof (varint_size_le (compute_size fs)). lia. Qed.
Lemma cs_nil : compute_size [] = 0. Proof. reflexivity. Qed.

(** Bound the size of a concrete field list. *)
Ltac bound_size :=
  repeat match goal with
  | |- context [compute_size ((?n, ?v) :: ?fs)] =>
      let H := fresh "Hb" in pose proof (cs_cons n v fs) as H;
      let x := fresh "x" in set (x := compute_size ((n, v) :: fs)) in *; clearbody x
  end;
  repeat match goal with
  | H : context [compute_size ((?n, ?v) :: ?fs)] |- _ =>
      let H' := fresh "Hb" in pose proof (cs_cons n v fs) as H';
      let x := fresh "x" in set (x := compute_size ((n, v) :: fs)) in *; clearbody x
  | H : context [val_size (PInt ?z)] |- _ =>
      let H' := fresh "Hb" in pose proof (vs_int z) as H';
      let x := fresh "x" in set (x := val_size (PInt z)) in *; clearbody x
  | H : context [val_size (PBytes ?z)] |- _ =>
      let H' := fresh "Hb" in pose proof (vs_bytes z) as H';
      let x := fresh "x" in set (x := val_size (PBytes z)) in *; clearbody x
  | H : context [val_size (PMsg ?z)] |- _ =>
      let H' := fresh "Hb" in pose proof (vs_msg z) as H';
      let x := fresh "x" in set (x := val_size (PMsg z)) in *; clearbody x
  | H : context [compute_size (?a ++ ?b)] |- _ => rewrite (cs_app a b) in H
  | H : context [compute_size []] |- _ => rewrite cs_nil in H
  end.

(** ** Typing of concrete field lists *)
Lemma wt_intro d m n v r f :
  num_ok n = true -> find_field m n = Some f ->
  match v with
  | PInt z => int_ok (f_ty f) z
  | PBytes b => match f_ty f with TStr => utf8 b | TByt => true | _ => false end
  | PUnk w => wval_ok w && unk_ok f w
  | PMsg sub => match f_ty f, d with TMsg s, S d' => wt d' s sub | _, _ => false end
  end = true ->
  wt d m r = true -> wt d m ((n, v) :: r) = true.
Proof.
  intros Hn Hf Hv Hr. destruct d; cbn [wt]; rewrite Hn, Hf, Hv; exact Hr.
Qed.
Lemma int_u64 v : v < 2 ^ 64 -> int_ok TU64 (Z.of_N v) = true.
Proof. intros H. unfold int_ok. change (2 ^ 64) with u64_max in H. unfold u64_max in H. lia. Qed.
Lemma int_u32 v : v < 2 ^ 32 -> int_ok TU32 (Z.of_N v) = true.
Proof. intros H. unfold int_ok. change (2 ^ 32) with u32_max in H. unfold u32_max in H. lia. Qed.
Lemma as_i32_ok n : int_ok TI32 (as_i32 n) = true.
Proof.
  unfold int_ok, i32_ok, as_i32. pose proof (N.mod_lt n u32_max). unfold u32_max in *.
  destruct (N.ltb_spec (n mod 4294967296) 2147483648); lia.
Qed.
Lemma as_i32_small n : n < 2147483648 -> as_i32 n = Z.of_N n.
Proof.
  intros H. unfold as_i32. rewrite N.mod_small by (unfold u32_max; lia).
  destruct (N.ltb_spec n 2147483648); lia.
Qed.

(** ** Batch entries *)
Lemma sum_app a b : sum (a ++ b) = sum a + sum b.
Proof. induction a as [|x a IH]; [reflexivity|]. cbn [sum fold_right app] in *. unfold sum in *. cbn [fold_right]. lia. Qed.
Lemma sum_cons a b : sum (a :: b) = a + sum b. Proof. reflexivity. Qed.

Lemma batch_entry_ok d : blen d < 2147483648 -> batch_entry d = Ok (batch_part d) /\ blen (batch_part d) <= 64 + blen d.
Proof.
  intros H. unfold batch_entry, batch_part. rewrite as_i32_small by assumption.
  set (md := [(3, PInt (Z.of_N (blen d)))]).
  assert (Hsz : compute_size md <= 20).
  { unfold md. bound_size. lia. }
  unfold write_unwrap.
  replace (initialized M_SingleMessageMetadata md) with true by reflexivity.
  replace (compute_size md <? proto_max) with true by (symmetry; apply N.ltb_lt; unfold proto_max; lia).
  cbn [andb obind]. rewrite N.mod_small by (unfold u32_max; lia).
  rewrite compute_size_ok. rewrite compute_size_ok in Hsz. split.
  - f_equal. rewrite <- be32_put. reflexivity.
  - rewrite !blen_app. change (blen [_; _; _; _]) with 4. lia.
Qed.
Lemma batch_entries_ok ds : sum (map (fun d => 64 + blen d) ds) < 2147483648 ->
  batch_entries ds = Ok (concat (map batch_part ds)) /\
  blen (concat (map batch_part ds)) <= sum (map (fun d => 64 + blen d) ds).
Proof.
  induction ds as [|d ds IH]; intros H; [split; [reflexivity|cbn; lia]|].
  cbn [map] in *. rewrite sum_cons in *. destruct (batch_entry_ok d) as [E1 L1]; [lia|].
  destruct IH as [E2 L2]; [lia|]. cbn [batch_entries concat]. rewrite E1. cbn [obind]. rewrite E2. cbn [omap obind].
  split; [reflexivity|]. rewrite blen_app. lia.
Qed.

(** ** Requests *)
Lemma carries_base ty k s p : 1 <> k -> carries (mk_cmd (base ty k s) p) ty k s.
Proof.
  intros Hk. unfold carries, base. cbn [mc_cmd].
  assert (E1 : k =? 1 = false) by lia. split; [|split].
  - unfold get_z. cbn [fold_left fst snd]. now rewrite E1.
  - unfold get_m. cbn [fold_left fst snd]. rewrite N.eqb_refl. now destruct (1 =? k).
  - intros j Hj. unfold get_m. cbn [fold_left fst snd]. replace (k =? j) with false by lia. now destruct (1 =? j).
Qed.

Lemma base_wt ty k s f sub : In ty (enum_values E_BaseCommand_Type) -> i32_ok ty = true -> find_field M_BaseCommand k = Some f ->
  f_ty f = TMsg sub -> num_ok k = true ->
  wt 99 sub s = true -> initialized sub s = true -> well_typed M_BaseCommand (base ty k s) = true.
Proof.
  intros Hin Hty Hf Ht Hk Hw Hi. unfold well_typed, base.
  apply andb_true_iff. split.
  - unfold recursion_limit. change 100%nat with (S 99).
    eapply wt_intro; [reflexivity|reflexivity|exact Hty|].
    eapply wt_intro; [exact Hk|exact Hf|cbn beta iota; rewrite Ht; exact Hw|reflexivity].
  - unfold initialized in *. rewrite inited_msg. apply andb_true_iff. split.
    + unfold required_ok. apply forallb_forall. intros g Hg.
      destruct (f_card g) eqn:Eg; try reflexivity.
      assert (f_num g = 1).
      { clear -Hg Eg. assert (H : forallb (fun g => match f_card g with Req => f_num g =? 1 | _ => true end) (fields M_BaseCommand) = true) by reflexivity.
        rewrite forallb_forall in H. specialize (H g Hg). rewrite Eg in H. lia. }
      rewrite H. reflexivity.
    + cbn [forallb fst snd]. rewrite Hf, Ht.
      change (find_field M_BaseCommand 1) with (Some (mkf 1 Req (TEnum E_BaseCommand_Type))).
      cbn [f_ty]. rewrite Hi. reflexivity.
Qed.

Lemma sub_type_ok st : i32_ok (sub_type_z st) = true. Proof. now destruct st. Qed.
Lemma trim_utf8 p : utf8 p = true -> utf8 (trim_start_matches (str "pulsar://") p) = true.
Proof.
  intros H. destruct (trim_spec (str "pulsar://") p) as (k & Hk & _); [discriminate|].
  rewrite Hk in H. clear Hk. induction k; cbn [repeat concat app] in H; [exact H|].
  apply IHk. rewrite <- app_assoc in H. rewrite utf8_app in H by reflexivity. exact H.
Qed.
Lemma trim_len p : blen (trim_start_matches (str "pulsar://") p) <= blen p.
Proof.
  destruct (trim_spec (str "pulsar://") p) as (k & Hk & _); [discriminate|].
  rewrite Hk at 2. rewrite blen_app. lia.
Qed.

Lemma acks_wt acks r : Forall (fun a => u64 (ak_cid a) /\ mid_ok (ak_mid a) /\ u64 (ak_rid a)) acks ->
  wt 99 M_CommandAck r = true ->
  wt 99 M_CommandAck (map (fun a => (3, PMsg (ak_mid a))) acks ++ r) = true.
Proof.
  intros H Hr. induction H as [|a l (_ & [Hw _] & _) _ IH]; [exact Hr|].
  cbn [map app]. eapply wt_intro; [reflexivity|reflexivity|exact Hw|exact IH].
Qed.
Lemma acks_size acks : compute_size (map (fun a => (3, PMsg (ak_mid a))) acks) <=
  sum (map (fun a => 64 + blen (write_msg (ak_mid a))) acks).
Proof.
  induction acks as [|a l IH]; [cbn; lia|]. cbn [map]. rewrite sum_cons. cbn [map] in IH.
  pose proof (cs_cons 3 (PMsg (ak_mid a)) (map (fun a => (3, PMsg (ak_mid a))) l)).
  pose proof (vs_msg (ak_mid a)). rewrite <- compute_size_ok. lia.
Qed.
Lemma get_ms_acks acks : get_ms 3 (map (fun a => (3, PMsg (ak_mid a))) acks) = map ak_mid acks.
Proof. unfold get_ms. induction acks as [|a l IH]; [reflexivity|]. cbn. cbn in IH. now rewrite IH. Qed.
Lemma get_z_app n a b : get_z n (a ++ b) = match get_z n b with Some z => Some z | None => get_z n a end.
Proof.
  unfold get_z. rewrite fold_left_app. generalize (fold_left (fun acc p => if fst p =? n then match snd p with PInt z => Some z | _ => acc end else acc) a None).
  intros o. revert o. induction b as [|[k v] b IH] using rev_ind; intros o; [reflexivity|].
  rewrite !fold_left_app. cbn [fold_left fst snd]. destruct (k =? n); [destruct v|]; auto.
Qed.
Lemma get_ms_app n a b : get_ms n (a ++ b) = get_ms n a ++ get_ms n b.
Proof. unfold get_ms. apply flat_map_app. Qed.
Lemma get_z_acks n acks : get_z n (map (fun a => (3, PMsg (ak_mid a))) acks) = None.
Proof.
  unfold get_z. induction acks as [|a l IH]; [reflexivity|]. cbn [map fold_left fst snd].
  destruct (3 =? n); exact IH.
Qed.

(** The command of a request: typed, small, and with the meaning it should have. *)
Lemma to_cmd_ok now o : req_ok o -> now < 2 ^ 64 -> req_weight o < 2 ^ 30 -> o <> OAck [] ->
  exists mc, to_cmd now o = Ok mc /\ denotes now o mc /\ cmd_ok mc = true /\
    compute_size (mc_cmd mc) < 1200000000 /\
    match mc_payload mc with None => True
    | Some p => compute_size (pl_meta p) < 1200000000 /\ blen (pl_data p) < 1200000000 end.
Proof.
  intros Hr Hnow Hw Hne. change (2 ^ 30) with 1073741824 in Hw.
  assert (Htyp : forall ty k s sub, In ty (enum_values E_BaseCommand_Type) -> i32_ok ty = true ->
     find_field M_BaseCommand k = Some (mkf k Opt (TMsg sub)) -> num_ok k = true -> wt 99 sub s = true ->
     initialized sub s = true -> compute_size s < 1150000000 ->
     cmd_ok (mk_cmd (base ty k s) None) = true /\ compute_size (base ty k s) < 1200000000).
  { intros ty k s sub H1 H2 H3 H5 H6 H7 H8. split.
    - unfold cmd_ok. cbn [mc_cmd mc_payload]. now rewrite (base_wt ty k s _ sub H1 H2 H3 eq_refl).
    - unfold base. bound_size. lia. }
  destruct o as [| |c|s|acks|rid topic|topic sn cid rid st|method data|cid permits|topic pid rid name];
    cbn [to_cmd req_ok req_weight] in *.
  - eexists; split; [reflexivity|]. split; [split; [now apply carries_base|reflexivity]|]. now vm_compute.
  - eexists; split; [reflexivity|]. split; [split; [now apply carries_base|reflexivity]|]. now vm_compute.
  - (* connect *)
    eexists; split; [reflexivity|]. split; [|].
    + split; [reflexivity|]. eexists. split; [now apply carries_base|].
      unfold connect_sub. destruct c as [ad am [[u|u p]|]]; destruct ad, am; repeat split; reflexivity.
    + cbn [mc_cmd mc_payload]. destruct Hr as [Hm Ha].
      assert (Hs : wt 99 M_CommandConnect (connect_sub c) = true /\
                   initialized M_CommandConnect (connect_sub c) = true /\ compute_size (connect_sub c) < 1150000000).
      { split; [|split].
        - unfold connect_sub. destruct c as [ad am a]. cbn [cn_auth_data cn_auth_method cn_addr] in *.
          cbn [app]. eapply wt_intro; [reflexivity|reflexivity|reflexivity|].
          assert (Hend : wt 99 M_CommandConnect (match a with
             | Some a => match get_proxy a with Some p => [(6, PBytes p)] | None => [] end | None => [] end) = true).
          { destruct a as [[u|u p]|]; try reflexivity. cbn [get_proxy].
            eapply wt_intro; [reflexivity|reflexivity| |reflexivity]. cbn [f_ty]. now apply trim_utf8. }
          destruct ad as [d|]; cbn [app].
          + eapply wt_intro; [reflexivity|reflexivity|reflexivity|].
            eapply wt_intro; [reflexivity|reflexivity|reflexivity|].
            eapply wt_intro; [reflexivity|reflexivity| |exact Hend].
            cbn [f_ty]. destruct am; [exact Hm|reflexivity].
          + eapply wt_intro; [reflexivity|reflexivity|reflexivity|exact Hend].
        - destruct c as [ad am [[u|u p]|]]; destruct ad, am; reflexivity.
        - destruct c as [ad am a]. cbn [cn_auth_data cn_auth_method cn_addr opt_len] in *. unfold connect_sub.
          cbn [cn_auth_data cn_auth_method cn_addr].
          assert (Hlit : blen (str "2.0.0-incubating") = 16) by reflexivity.
          assert (Hlit2 : blen (str "none") = 4) by reflexivity.
          destruct a as [[u|u p]|]; destruct ad, am; cbn [app get_proxy opt_len] in *;
            try (pose proof (trim_len p)); bound_size; lia. }
      destruct Hs as (H1 & H2 & H3).
      destruct (Htyp 2%Z 2 (connect_sub c) M_CommandConnect) as [K1 K2];
        [cbn; tauto|reflexivity|reflexivity|reflexivity|assumption|assumption|assumption|].
      auto.
  - (* send *)
    unfold send_cmd.
    assert (Hp : exists data, s_payload s = Ok data /\ blen data < 1200000000 /\
       match s with SSingle _ _ _ d => data = d | SBatch _ _ _ ds => data = concat (map batch_part ds) end).
    { destruct s as [name pid seq d|name pid seq ds]; cbn [s_payload].
      - exists d. repeat split; auto. lia.
      - destruct (batch_entries_ok ds) as [E L]; [lia|]. rewrite E. eexists. repeat split; auto. lia. }
    destruct Hp as (data & -> & Hlen & Hdata). cbn [obind]. eexists; split; [reflexivity|].
    cbn [mc_cmd mc_payload pl_meta pl_data].
    assert (Hn : string_ok (s_name s) /\ u64 (s_pid s) /\ u64 (s_seq s) /\ blen (s_name s) < 1073741824).
    { destruct s; cbn [s_name s_pid s_seq]; destruct Hr as (? & ? & ?); repeat split; auto; lia. }
    destruct Hn as (Hn & Hpid & Hseq & Hnl). unfold u64, string_ok in *.
    assert (Hcount : match s with SSingle _ _ _ _ => as_i32 (s_count s) = 1%Z
              | SBatch _ _ _ ds => as_i32 (s_count s) = Z.of_N (N.of_nat (length ds)) end).
    { destruct s as [?|name pid seq ds]; [reflexivity|]. cbn [s_count].
      assert (N.of_nat (length ds) <= sum (map (fun d => 64 + blen d) ds)).
      { clear. induction ds as [|d ds IH]; [cbn; lia|]. cbn [length map]. rewrite sum_cons. lia. }
      unfold as_u32. rewrite N.mod_small by (unfold u32_max; lia).
      apply as_i32_small. lia. }
    split; [|split; [|split; [|split]]].
    + eexists _, _. split; [now apply carries_base|]. split; [reflexivity|].
      cbn [pl_meta pl_data].
      destruct s as [name pid seq d|name pid seq ds]; rewrite Hcount; subst data; repeat split; reflexivity.
    + unfold cmd_ok. cbn [mc_cmd mc_payload pl_meta]. apply andb_true_iff. split.
      * eapply (base_wt 6%Z 6 _ (mkf 6 Opt (TMsg M_CommandSend)) M_CommandSend); [cbn; tauto|reflexivity|reflexivity|reflexivity|reflexivity| |reflexivity].
        eapply wt_intro; [reflexivity|reflexivity|apply int_u64; assumption|].
        eapply wt_intro; [reflexivity|reflexivity|apply int_u64; assumption|].
        eapply wt_intro; [reflexivity|reflexivity|apply as_i32_ok|reflexivity].
      * apply andb_true_iff. split; [|reflexivity].
        eapply wt_intro; [reflexivity|reflexivity|exact Hn|].
        eapply wt_intro; [reflexivity|reflexivity|apply int_u64; assumption|].
        eapply wt_intro; [reflexivity|reflexivity|apply int_u64; assumption|].
        eapply wt_intro; [reflexivity|reflexivity|apply as_i32_ok|].
        eapply wt_intro; [reflexivity|reflexivity|apply int_u64; assumption|reflexivity].
    + unfold base, uint. bound_size. lia.
    + unfold uint. bound_size. lia.
    + exact Hlen.
  - (* ack *)
    destruct acks as [|a acks]; [contradiction|].
    unfold ack_cmd. eexists; split; [reflexivity|].
    set (ty := match acks with _ :: _ => 1%Z | [] => 0%Z end).
    set (all := a :: acks) in *.
    assert (Hty : ty = Z.of_N (if Nat.eqb (length all) 1 then 0 else 1)) by (unfold ty, all; now destruct acks).
    split.
    + split; [reflexivity|]. eexists _, a. split; [reflexivity|]. split; [now apply carries_base|].
      unfold int_field. rewrite Hty. clear Hty ty.
      rewrite !get_z_app, !get_z_acks, !get_ms_app, get_ms_acks.
      repeat split; try reflexivity. cbn. now rewrite app_nil_r.
    + assert (Hs : forall l, Forall (fun a => u64 (ak_cid a) /\ mid_ok (ak_mid a) /\ u64 (ak_rid a)) l ->
         forallb (fun p => match find_field M_CommandAck (fst p) with
           | Some f => match f_ty f with TMsg sub => inited_val sub (snd p) | _ => true end | None => true end)
           (map (fun a => (3, PMsg (ak_mid a))) l) = true).
      { intros l H. induction H as [|x l (_ & [_ Hi] & _) _ IH]; [reflexivity|]. cbn [map forallb fst snd].
        rewrite IH, andb_true_r. exact Hi. }
      assert (Hha := Forall_inv Hr). destruct Hha as (Hc & _ & Hrid).
      destruct (Htyp 10%Z 10 ([(1, uint (ak_cid a)); (2, PInt ty)] ++ map (fun a => (3, PMsg (ak_mid a))) all ++ [(8, uint (ak_rid a))])
         M_CommandAck) as [K1 K2]; [cbn; tauto|reflexivity|reflexivity|reflexivity| | | |exact (conj K1 (conj K2 I))].
      * cbn [app]. eapply wt_intro; [reflexivity|reflexivity|apply int_u64; exact Hc|].
        eapply wt_intro; [reflexivity|reflexivity| |].
        { rewrite Hty. destruct (Nat.eqb (length all) 1); reflexivity. }
        apply acks_wt; [exact Hr|]. eapply wt_intro; [reflexivity|reflexivity|apply int_u64; exact Hrid|reflexivity].
      * unfold initialized. rewrite inited_msg. apply andb_true_iff. split.
        { unfold all. reflexivity. }
        rewrite !forallb_app. rewrite (Hs all Hr). reflexivity.
      * pose proof (acks_size all). rewrite !cs_app. unfold uint.
        set (y := compute_size (map _ all)) in *. bound_size. lia.
  - (* lookup *)
    destruct Hr as [Hrid Htop]. eexists; split; [reflexivity|]. split.
    + split; [reflexivity|]. eexists. split; [now apply carries_base|]. split; reflexivity.
    + destruct (Htyp 23%Z 23 [(1, PBytes topic); (2, uint rid)] M_CommandLookupTopic) as [K1 K2];
        [cbn; tauto|reflexivity|reflexivity|reflexivity| |reflexivity| |exact (conj K1 (conj K2 I))].
      * eapply wt_intro; [reflexivity|reflexivity|exact Htop|].
        eapply wt_intro; [reflexivity|reflexivity|apply int_u64; exact Hrid|reflexivity].
      * unfold uint. bound_size. lia.
  - (* subscribe *)
    destruct Hr as (Htop & Hsn & Hcid & Hrid). eexists; split; [reflexivity|]. split.
    + split; [reflexivity|]. eexists. split; [now apply carries_base|]. repeat split; try reflexivity. now destruct st.
    + destruct (Htyp 4%Z 4 [(1, PBytes topic); (2, PBytes sn); (3, PInt (sub_type_z st)); (4, uint cid); (5, uint rid)] M_CommandSubscribe) as [K1 K2];
        [cbn; tauto|reflexivity|reflexivity|reflexivity| |reflexivity| |exact (conj K1 (conj K2 I))].
      * eapply wt_intro; [reflexivity|reflexivity|exact Htop|].
        eapply wt_intro; [reflexivity|reflexivity|exact Hsn|].
        eapply wt_intro; [reflexivity|reflexivity|apply sub_type_ok|].
        eapply wt_intro; [reflexivity|reflexivity|apply int_u64; exact Hcid|].
        eapply wt_intro; [reflexivity|reflexivity|apply int_u64; exact Hrid|reflexivity].
      * unfold uint. bound_size. lia.
  - (* auth *)
    eexists; split; [reflexivity|]. split.
    + split; [reflexivity|]. eexists. split; [now apply carries_base|]. eexists. repeat split; reflexivity.
    + destruct (Htyp 36%Z 37 [(2, PMsg [(1, PBytes method); (2, PBytes data)])] M_CommandAuthResponse) as [K1 K2];
        [cbn; tauto|reflexivity|reflexivity|reflexivity| |reflexivity| |exact (conj K1 (conj K2 I))].
      * eapply wt_intro; [reflexivity|reflexivity| |reflexivity]. cbn [f_ty].
        eapply wt_intro; [reflexivity|reflexivity|exact Hr|].
        eapply wt_intro; [reflexivity|reflexivity|reflexivity|reflexivity].
      * bound_size. lia.
  - (* flow *)
    destruct Hr as (Hcid & Hpm). eexists; split; [reflexivity|]. split.
    + split; [reflexivity|]. eexists. split; [now apply carries_base|]. repeat split; reflexivity.
    + destruct (Htyp 11%Z 11 [(1, uint cid); (2, uint permits)] M_CommandFlow) as [K1 K2];
        [cbn; tauto|reflexivity|reflexivity|reflexivity| |reflexivity| |exact (conj K1 (conj K2 I))].
      * eapply wt_intro; [reflexivity|reflexivity|apply int_u64; exact Hcid|].
        eapply wt_intro; [reflexivity|reflexivity|apply int_u32; exact Hpm|reflexivity].
      * unfold uint. bound_size. lia.
  - (* producer *)
    destruct Hr as (Htop & Hpid & Hrid & Hname). eexists; split; [reflexivity|]. split.
    + split; [reflexivity|]. eexists. split; [now apply carries_base|]. destruct name; repeat split; reflexivity.
    + destruct (Htyp 5%Z 5 ([(1, PBytes topic); (2, uint pid); (3, uint rid)] ++ match name with Some n => [(4, PBytes n)] | None => [] end) M_CommandProducer) as [K1 K2];
        [cbn; tauto|reflexivity|reflexivity|reflexivity| |now destruct name| |exact (conj K1 (conj K2 I))].
      * cbn [app]. eapply wt_intro; [reflexivity|reflexivity|exact Htop|].
        eapply wt_intro; [reflexivity|reflexivity|apply int_u64; exact Hpid|].
        eapply wt_intro; [reflexivity|reflexivity|apply int_u64; exact Hrid|].
        destruct name; [|reflexivity]. eapply wt_intro; [reflexivity|reflexivity|exact Hname|reflexivity].
      * unfold uint. destruct name; cbn [app opt_len] in *; bound_size; lia.
Qed.

Lemma cmd_fits mc : cmd_ok mc = true -> compute_size (mc_cmd mc) < 1200000000 ->
  match mc_payload mc with None => True
    | Some p => compute_size (pl_meta p) < 1200000000 /\ blen (pl_data p) < 1200000000 end ->
  fits mc /\ blen (write_msg (mc_cmd mc)) < 2 ^ 31 /\
  (forall p, mc_payload mc = Some p -> blen (write_msg (pl_meta p)) < 2 ^ 31).
Proof.
  intros Hok Hc Hp. change (2 ^ 31) with 2147483648. rewrite compute_size_ok in Hc. split; [|split].
  - split; [exact Hok|]. change (2 ^ 32) with 4294967296. unfold frame_total, sect.
    destruct (mc_payload mc) as [p|]; [rewrite compute_size_ok in Hp|]; lia.
  - lia.
  - intros p E. rewrite E in Hp. rewrite compute_size_ok in Hp. lia.
Qed.
