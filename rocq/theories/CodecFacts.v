(** Facts about the codec, used by PropCodec.v. *)
From Verif Require Import Bytes Errors Wire Proto ProtoFacts Crc CrcFacts Codec SpecFrame SpecCodec.
Open Scope N_scope.

Lemma Ok_inj {A} (a b : A) : Ok a = Ok b -> a = b.
Proof. congruence. Qed.

Lemma be32_put n : be32 n = put_u32 n.
Proof.
  unfold be32, put_u32. cbn [be_bytes app].
  rewrite !N.div_div by lia. reflexivity.
Qed.
Lemma put_u32_len n : blen (put_u32 n) = 4.
Proof. unfold blen, put_u32. now rewrite be_bytes_length. Qed.
Lemma put_u16_len n : blen (put_u16 n) = 2.
Proof. unfold blen, put_u16. now rewrite be_bytes_length. Qed.

Lemma rd32_get b : rd32 b = get_be 4 b.
Proof.
  unfold rd32, get_be, take_n.
  destruct b as [|a [|b [|c [|d r]]]]; try reflexivity.
  replace (N.of_nat 4 <=? blen (a :: b :: c :: d :: r)) with true.
  - cbn [N.of_nat N.to_nat Pos.to_nat Pos.of_succ_nat Pos.succ Pos.iter_op Nat.add firstn skipn be_val fold_left].
    unfold be_val. cbn. f_equal.
  - symmetry. apply N.leb_le. rewrite !blen_cons. lia.
Qed.
Lemma cut_take n b : cut n b = take_n n b.
Proof. reflexivity. Qed.

Lemma get_be_some k b n r : get_be k b = Some (n, r) -> b = be_bytes k n ++ r /\ n < 256 ^ N.of_nat k.
Proof.
  unfold get_be. destruct (take_n (N.of_nat k) b) as [[x y]|] eqn:E; [|discriminate].
  intros H. injection H as <- <-. apply take_n_some in E. destruct E as [-> Hl]. split.
  - f_equal. rewrite <- (be_bytes_be_val x) at 1. f_equal. unfold blen in Hl. lia.
  - rewrite <- Hl. apply be_val_bound.
Qed.
Lemma get_be_none k b : get_be k b = None <-> blen b < N.of_nat k.
Proof.
  unfold get_be. rewrite <- take_n_none. destruct (take_n (N.of_nat k) b) as [[x y]|]; split; congruence.
Qed.

(** What one complete frame body (everything after the total size) decodes to. *)
Definition body_result (body : bytes) : option msg_cmd :=
  match get_be 4 body with
  | None => None
  | Some (n, b2) =>
      match take_n n b2 with
      | None => None
      | Some (cb, after) =>
          match parse_msg M_BaseCommand cb with
          | None => None
          | Some command =>
              match (match after with [] => None | _ => payload_frame after end) with
              | None => Some (mk_cmd command None)
              | Some (meta, data) =>
                  match parse_msg M_MessageMetadata meta with
                  | None => None
                  | Some metadata => Some (mk_cmd command (Some (mk_payload metadata data)))
                  end
              end
          end
      end
  end.

Lemma firstn_blen (a b : bytes) n : n = blen a -> firstn (N.to_nat n) (a ++ b) = a.
Proof. intros ->. unfold blen. rewrite Nnat.Nat2N.id, firstn_app, Nat.sub_diag, firstn_all. apply app_nil_r. Qed.
Lemma skipn_blen (a b : bytes) n : n = blen a -> skipn (N.to_nat n) (a ++ b) = b.
Proof. intros ->. unfold blen. rewrite Nnat.Nat2N.id, skipn_app, Nat.sub_diag, skipn_all. reflexivity. Qed.

Lemma decode_frame body rest : blen body < u32_max ->
  decode (put_u32 (blen body) ++ body ++ rest) =
  match body_result body with None => Crash | Some mc => Got mc rest end.
Proof.
  intros Hb. unfold decode.
  assert (Hl : blen (put_u32 (blen body) ++ body ++ rest) = 4 + blen body + blen rest)
    by (rewrite !blen_app, put_u32_len; lia).
  rewrite Hl. destruct (N.ltb_spec (4 + blen body + blen rest) 4); [lia|].
  replace (be_val (firstn 4 (put_u32 (blen body) ++ body ++ rest))) with (blen body).
  2:{ change 4%nat with (N.to_nat 4). rewrite firstn_blen by (now rewrite put_u32_len).
      symmetry. apply be_val_be_bytes_small. exact Hb. }
  destruct (N.leb_spec (blen body + 4) (4 + blen body + blen rest)); [|lia].
  rewrite (app_assoc (put_u32 _) body rest).
  rewrite firstn_blen by (rewrite blen_app, put_u32_len; lia).
  rewrite skipn_blen by (rewrite blen_app, put_u32_len; lia).
  unfold command_frame, body_result.
  unfold put_u32 at 1. rewrite get_be_put by exact Hb.
  destruct (get_be 4 body) as [[n b2]|]; [|reflexivity].
  destruct (take_n n b2) as [[cb after]|]; [|reflexivity].
  destruct (parse_msg M_BaseCommand cb); [|reflexivity].
  destruct (match after with [] => None | _ => payload_frame after end) as [[me da]|]; [|reflexivity].
  destruct (parse_msg M_MessageMetadata me); reflexivity.
Qed.

(** Every buffer is either incomplete or starts with a complete frame. *)
Lemma buffer_cases src :
  (decode src = Wait /\ (blen src < 4 \/ exists t r, t < u32_max /\ src = put_u32 t ++ r /\ blen r < t)) \/
  (exists body rest, src = put_u32 (blen body) ++ body ++ rest /\ blen body < u32_max).
Proof.
  destruct (N.ltb_spec (blen src) 4) as [H|H].
  - left. split; [|now left]. unfold decode. destruct (N.ltb_spec (blen src) 4); [reflexivity|lia].
  - destruct (get_be 4 src) as [[t r]|] eqn:E.
    2:{ apply get_be_none in E. lia. }
    apply get_be_some in E. destruct E as [-> Ht]. change (256 ^ N.of_nat 4) with u32_max in Ht.
    change (be_bytes 4 t) with (put_u32 t).
    destruct (take_n t r) as [[body rest]|] eqn:Et.
    + right. apply take_n_some in Et. destruct Et as [-> Hl]. exists body, rest. rewrite Hl. now split.
    + apply take_n_none in Et. left. split; [|right; exists t, r; auto].
      unfold decode. rewrite blen_app, put_u32_len.
      destruct (N.ltb_spec (4 + blen r) 4); [lia|].
      change 4%nat with (N.to_nat 4). rewrite firstn_blen by (now rewrite put_u32_len).
      unfold put_u32. rewrite be_val_be_bytes_small by exact Ht.
      destruct (N.leb_spec (t + 4) (4 + blen r)); [lia|reflexivity].
Qed.

Lemma decode_got_split src mc rest : decode src = Got mc rest ->
  exists body, src = put_u32 (blen body) ++ body ++ rest /\ blen body < u32_max /\ body_result body = Some mc.
Proof.
  intros H. destruct (buffer_cases src) as [[Hw _]|(body & rest' & -> & Hb)]; [congruence|].
  rewrite (decode_frame body rest' Hb) in H. exists body.
  destruct (body_result body) as [mc'|] eqn:E; [|discriminate]. injection H as <- <-. auto.
Qed.
Lemma decode_crash_split src : decode src = Crash ->
  exists body rest, src = put_u32 (blen body) ++ body ++ rest /\ blen body < u32_max /\ body_result body = None.
Proof.
  intros H. destruct (buffer_cases src) as [[Hw _]|(body & rest' & -> & Hb)]; [congruence|].
  rewrite (decode_frame body rest' Hb) in H. exists body, rest'.
  destruct (body_result body) as [mc'|] eqn:E; [discriminate|]. auto.
Qed.

Lemma decode_got_app src mc rest x : decode src = Got mc rest -> decode (src ++ x) = Got mc (rest ++ x).
Proof.
  intros H. apply decode_got_split in H. destruct H as (body & -> & Hb & E).
  rewrite <- !app_assoc. rewrite (decode_frame body (rest ++ x) Hb). now rewrite E.
Qed.
Lemma decode_crash_app src x : decode src = Crash -> decode (src ++ x) = Crash.
Proof.
  intros H. apply decode_crash_split in H. destruct H as (body & rest & -> & Hb & E).
  rewrite <- !app_assoc. rewrite (decode_frame body (rest ++ x) Hb). now rewrite E.
Qed.
Lemma decode_got_shrinks src mc rest : decode src = Got mc rest -> (length rest < length src)%nat.
Proof.
  intros H. apply decode_got_split in H. destruct H as (body & -> & _).
  rewrite !app_length. unfold put_u32. rewrite be_bytes_length. lia.
Qed.

(** ** Encoding *)
Lemma write_unwrap_ok m fs b : write_unwrap m fs = Ok b ->
  b = write_msg fs /\ initialized m fs = true /\ blen b < proto_max.
Proof.
  unfold write_unwrap. destruct (initialized m fs) eqn:E; [|discriminate]. cbn [andb].
  destruct (N.ltb_spec (compute_size fs) proto_max); [|discriminate].
  intros H0. injection H0 as <-. rewrite <- compute_size_ok. auto.
Qed.

Lemma be_bytes_mod k : forall n, be_bytes k (n mod 256 ^ N.of_nat k) = be_bytes k n.
Proof.
  intros n. rewrite <- be_val_be_bytes. rewrite <- (be_bytes_length k n) at 1. apply be_bytes_be_val.
Qed.
Lemma put_u32_mod n : put_u32 (n mod u32_max) = put_u32 n.
Proof. exact (be_bytes_mod 4 n). Qed.
(** The size arithmetic is exact modulo 2^32, with and without overflow checks. *)
Lemma total_mod oc c m d h s : 4 <= h -> u32_sum oc (c + m + d mod u32_max + h) = Ok s ->
  (s + u32_max - 4) mod u32_max = (c + m + d + (h - 4)) mod u32_max.
Proof.
  intros Hh H.
  assert (E : s mod u32_max = (c + m + d + h) mod u32_max).
  { unfold u32_sum in H.
    assert (E0 : (c + m + d mod u32_max + h) mod u32_max = (c + m + d + h) mod u32_max).
    { replace (c + m + d mod u32_max + h) with (c + m + h + d mod u32_max) by lia.
      rewrite N.add_mod_idemp_r by (unfold u32_max; lia). f_equal. lia. }
    destruct (c + m + d mod u32_max + h <? u32_max); [injection H as <-; exact E0|].
    destruct oc; [discriminate|]. injection H as <-. rewrite N.mod_mod by (unfold u32_max; lia). exact E0. }
  replace (s + u32_max - 4) with (s + (u32_max - 4)) by (unfold u32_max; lia).
  rewrite <- N.add_mod_idemp_l, E, N.add_mod_idemp_l by (unfold u32_max; lia).
  replace (c + m + d + h + (u32_max - 4)) with (c + m + d + (h - 4) + 1 * u32_max) by (unfold u32_max; lia).
  apply N.mod_add. unfold u32_max; lia.
Qed.

Lemma encode_bytes oc mc b :
  encode oc mc = Ok b -> b = frame_bytes (write_msg (mc_cmd mc)) (sect mc).
Proof.
  unfold encode. destruct (write_unwrap M_BaseCommand (mc_cmd mc)) as [cb| |] eqn:Ec; try discriminate.
  apply write_unwrap_ok in Ec. destruct Ec as (-> & _ & Hc). cbn [obind].
  rewrite (compute_size_ok (mc_cmd mc)).
  unfold frame_bytes, section_bytes, sect, proto_max in *. intros H.
  set (cl := blen (write_msg (mc_cmd mc))) in *.
  assert (Hcm : cl mod u32_max = cl) by (apply N.mod_small; unfold u32_max; lia).
  rewrite Hcm in H.
  destruct (mc_payload mc) as [p|].
  - rewrite (compute_size_ok (pl_meta p)) in H.
    destruct (u32_sum oc _) as [s| |] eqn:Es in H; try discriminate. cbn [obind] in H.
    destruct (write_unwrap M_MessageMetadata (pl_meta p)) as [mb| |] eqn:Em; try discriminate.
    apply write_unwrap_ok in Em. destruct Em as (-> & _ & Hml). cbn [obind] in H. unfold proto_max in Hml.
    set (ml := blen (write_msg (pl_meta p))) in *.
    assert (Hm : ml mod u32_max = ml) by (apply N.mod_small; unfold u32_max in *; lia).
    rewrite Hm in *.
    apply total_mod in Es; [|lia]. rewrite Es in H.
    apply Ok_inj in H. subst b. rewrite !be32_put, put_u32_mod.
    rewrite <- !app_assoc.
    match goal with |- put_u32 ?a ++ _ = put_u32 ?b ++ _ => replace b with a end.
    2:{ rewrite !blen_app, !blen_cons, !blen_app, !put_u32_len. fold cl ml. lia. }
    rewrite <- crc32c_spec. reflexivity.
  - destruct (u32_sum oc _) as [s| |] eqn:Es in H; try discriminate. cbn [obind] in H.
    apply (total_mod oc cl 0 0 8 s) in Es; [|lia]. rewrite Es in H.
    apply Ok_inj in H. subst b. rewrite !be32_put, put_u32_mod.
    rewrite app_nil_r.
    match goal with |- put_u32 ?a ++ _ = put_u32 ?b ++ _ => replace b with a end.
    2:{ rewrite !blen_app, put_u32_len. fold cl. lia. }
    reflexivity.
Qed.

(** When encoding succeeds and when it panics: only the overflow check decides. *)
Lemma encode_cases oc mc :
  well_typed M_BaseCommand (mc_cmd mc) = true ->
  match mc_payload mc with None => True | Some p => well_typed M_MessageMetadata (pl_meta p) = true end ->
  blen (write_msg (mc_cmd mc)) < proto_max ->
  match mc_payload mc with None => True | Some p => blen (write_msg (pl_meta p)) < proto_max end ->
  (exists b, encode oc mc = Ok b /\ (oc = true -> match mc_payload mc with None => 0 | Some p => blen (pl_data p) end < u32_max -> frame_total (write_msg (mc_cmd mc)) (sect mc) + 4 < u32_max)) \/
  (encode oc mc = Panic /\ oc = true /\ u32_max <= frame_total (write_msg (mc_cmd mc)) (sect mc) + 4).
Proof.
  intros Hc Hp Hcs Hps. unfold encode, write_unwrap.
  unfold well_typed in Hc. apply andb_true_iff in Hc. destruct Hc as [_ Hc]. rewrite Hc.
  rewrite !compute_size_ok. apply N.ltb_lt in Hcs. rewrite Hcs. cbn [andb obind].
  apply N.ltb_lt in Hcs. unfold u32_sum, frame_total, sect, proto_max in *.
  rewrite (N.mod_small (blen (write_msg (mc_cmd mc)))) by (unfold u32_max; lia).
  destruct (mc_payload mc) as [p|].
  - rewrite compute_size_ok.
    rewrite (N.mod_small (blen (write_msg (pl_meta p)))) by (unfold u32_max; lia).
    unfold well_typed in Hp. apply andb_true_iff in Hp. destruct Hp as [_ Hp]. rewrite Hp.
    apply N.ltb_lt in Hps. rewrite Hps. cbn [andb obind].
    assert (Hle : blen (pl_data p) mod u32_max <= blen (pl_data p)) by (apply N.mod_le; unfold u32_max; lia).
    destruct (N.ltb_spec (blen (write_msg (mc_cmd mc)) + blen (write_msg (pl_meta p)) + blen (pl_data p) mod u32_max + 18) u32_max).
    + left. cbn [obind]. eexists. split; [reflexivity|]. intros _ Hd. rewrite N.mod_small in H by exact Hd. lia.
    + destruct oc.
      * right. cbn [obind]. split; [reflexivity|]. split; [reflexivity|]. lia.
      * left. cbn [obind]. eexists. split; [reflexivity|]. discriminate.
  - destruct (N.ltb_spec (blen (write_msg (mc_cmd mc)) + 0 + 0 + 8) u32_max).
    + left. cbn [obind]. eexists. split; [reflexivity|]. intros _ _. lia.
    + unfold u32_max in *. lia.
Qed.

Lemma encode_ok oc mc :
  well_typed M_BaseCommand (mc_cmd mc) = true ->
  match mc_payload mc with None => True | Some p => well_typed M_MessageMetadata (pl_meta p) = true end ->
  blen (write_msg (mc_cmd mc)) < proto_max ->
  match mc_payload mc with None => True | Some p => blen (write_msg (pl_meta p)) < proto_max end ->
  frame_total (write_msg (mc_cmd mc)) (sect mc) + 4 < u32_max ->
  exists b, encode oc mc = Ok b.
Proof.
  intros Hc Hp Hcs Hps Ht. unfold encode, write_unwrap.
  unfold well_typed in Hc. apply andb_true_iff in Hc. destruct Hc as [_ Hc]. rewrite Hc.
  rewrite !compute_size_ok. apply N.ltb_lt in Hcs. rewrite Hcs. cbn [andb obind].
  apply N.ltb_lt in Hcs. unfold u32_sum, frame_total, sect, proto_max in *.
  rewrite (N.mod_small (blen (write_msg (mc_cmd mc)))) by (unfold u32_max; lia).
  destruct (mc_payload mc) as [p|].
  - rewrite compute_size_ok.
    rewrite (N.mod_small (blen (write_msg (pl_meta p)))) by (unfold u32_max; lia).
    rewrite (N.mod_small (blen (pl_data p))) by lia.
    destruct (N.ltb_spec (blen (write_msg (mc_cmd mc)) + blen (write_msg (pl_meta p)) + blen (pl_data p) + 18) u32_max); [|lia].
    cbn [obind]. unfold well_typed in Hp. apply andb_true_iff in Hp. destruct Hp as [_ Hp]. rewrite Hp.
    apply N.ltb_lt in Hps. rewrite Hps. cbn. eauto.
  - destruct (N.ltb_spec (blen (write_msg (mc_cmd mc)) + 0 + 0 + 8) u32_max); [|lia]. cbn. eauto.
Qed.

Lemma frame_decode mc rest : cmd_ok mc = true ->
  frame_total (write_msg (mc_cmd mc)) (sect mc) < u32_max ->
  decode (frame_bytes (write_msg (mc_cmd mc)) (sect mc) ++ rest) = Got mc rest.
Proof.
  intros Hok Ht. unfold cmd_ok in Hok. apply andb_true_iff in Hok. destruct Hok as [Hc Hp].
  unfold frame_bytes.
  set (body := be32 (blen (write_msg (mc_cmd mc))) ++ write_msg (mc_cmd mc) ++ section_bytes (sect mc)).
  assert (Hbl : blen body = frame_total (write_msg (mc_cmd mc)) (sect mc)).
  { unfold body, frame_total, section_bytes, sect. rewrite be32_put, !blen_app, put_u32_len.
    destruct (mc_payload mc) as [p|]; [|rewrite blen_nil; lia].
    rewrite !blen_cons, !be32_put, !blen_app, !put_u32_len. lia. }
  rewrite be32_put, <- app_assoc, decode_frame by lia.
  unfold body_result, body. rewrite be32_put. unfold put_u32.
  unfold frame_total in Ht.
  rewrite get_be_put by (change (256 ^ N.of_nat 4) with u32_max; lia).
  rewrite take_n_app by reflexivity.
  rewrite parse_write_msg by (try exact Hc; unfold u32_max, u64_max in *; lia).
  destruct mc as [cmd pl]. unfold sect in *. cbn [mc_cmd mc_payload] in *.
  destruct pl as [p|]; cbn [section_bytes]; [|reflexivity].
  change (n2b 14 :: n2b 1 :: ?x) with (put_u16 0x0e01 ++ x).
  set (after := put_u16 0x0e01 ++ be32 (spec_crc (be32 (blen (write_msg (pl_meta p))) ++ write_msg (pl_meta p) ++ pl_data p)) ++
     be32 (blen (write_msg (pl_meta p))) ++ write_msg (pl_meta p) ++ pl_data p).
  assert (Hpf : payload_frame after = Some (write_msg (pl_meta p), pl_data p)).
  { unfold payload_frame, after, put_u16. rewrite get_be_put by reflexivity.
    rewrite !be32_put. unfold put_u32.
    rewrite get_be_put.
    2:{ change (256 ^ N.of_nat 4) with u32_max. rewrite <- crc32c_spec. apply crc32c_bound. }
    rewrite get_be_put by (change (256 ^ N.of_nat 4) with u32_max; lia).
    now rewrite take_n_app. }
  change (match after with [] => None | _ => payload_frame after end) with (payload_frame after).
  rewrite Hpf.
  rewrite parse_write_msg by (try exact Hp; unfold u32_max, u64_max in *; lia).
  destruct p; reflexivity.
Qed.

Lemma fits_sendable mc : fits mc -> sendable mc.
Proof. intros [A B]. split; [exact A|lia]. Qed.

(** ** The read loop *)
Lemma drain_fuel f1 : forall f2 b, (length b < f1)%nat -> (length b < f2)%nat -> drain f1 b = drain f2 b.
Proof.
  induction f1 as [|f1 IH]; intros [|f2] b H1 H2; try lia.
  cbn [drain]. destruct (decode b) as [|mc rest|] eqn:E; try reflexivity.
  apply decode_got_shrinks in E. rewrite (IH f2 rest) by lia. reflexivity.
Qed.
Lemma drain_all_eq b : drain_all b =
  match decode b with
  | Wait => ([], Some b)
  | Crash => ([], None)
  | Got mc rest => let (ms, r) := drain_all rest in (mc :: ms, r)
  end.
Proof.
  unfold drain_all. cbn [drain]. destruct (decode b) as [|mc rest|] eqn:E; try reflexivity.
  apply decode_got_shrinks in E. rewrite (drain_fuel (length b) (S (length rest))) by lia. reflexivity.
Qed.

Lemma drain_all_app a x :
  drain_all (a ++ x) =
  match drain_all a with
  | (ms, None) => (ms, None)
  | (ms, Some r) => let (ms', r') := drain_all (r ++ x) in (ms ++ ms', r')
  end.
Proof.
  remember (length a) as n eqn:Hn. assert (Hle : (length a <= n)%nat) by lia. clear Hn. revert a Hle.
  induction n as [|n IH]; intros a Hle.
  - destruct a; [|simpl in Hle; lia]. change (drain_all []) with (@nil msg_cmd, Some (@nil byte)).
    cbn [app]. destruct (drain_all x). reflexivity.
  - rewrite (drain_all_eq a). destruct (decode a) as [|mc rest|] eqn:E.
    + destruct (drain_all (a ++ x)). reflexivity.
    + rewrite (drain_all_eq (a ++ x)), (decode_got_app _ _ _ x E).
      apply decode_got_shrinks in E. rewrite (IH rest) by lia.
      destruct (drain_all rest) as [ms [r|]]; [|reflexivity].
      destruct (drain_all (r ++ x)). reflexivity.
    + rewrite (drain_all_eq (a ++ x)), (decode_crash_app _ x E). reflexivity.
Qed.

Lemma drain_all_idem b ms r : drain_all b = (ms, Some r) -> drain_all r = ([], Some r).
Proof.
  intros H. pose proof (drain_all_app b []) as Ha. rewrite H, !app_nil_r in Ha.
  remember (length b) as n eqn:Hn. assert (Hle : (length b <= n)%nat) by lia. clear Hn Ha. revert b ms H Hle.
  induction n as [|n IH]; intros b ms H Hle.
  - destruct b; [|simpl in Hle; lia]. cbn in H. injection H as <- <-. reflexivity.
  - rewrite drain_all_eq in H. destruct (decode b) as [|mc rest|] eqn:E.
    + injection H as <- <-. rewrite drain_all_eq, E. reflexivity.
    + destruct (drain_all rest) as [ms' r'] eqn:Er. injection H as <- ->.
      apply decode_got_shrinks in E. eapply IH; [exact Er|lia].
    + discriminate.
Qed.

(** The items depend only on the bytes, not on how they are cut into reads. *)
Definition items_of (b : bytes) (closed : bool) : list item :=
  match drain_all b with
  | (ms, Some r) => map IFrame ms ++ (if closed then match r with [] => [IEnd] | _ => [IErr DecodeFailed; IEnd] end else [])
  | (ms, None) => map IFrame ms ++ [IPanic]
  end.

Lemma framed_items reads : forall buf closed, drain_all buf = ([], Some buf) ->
  framed buf reads closed = items_of (buf ++ concat reads) closed.
Proof.
  induction reads as [|r rs IH]; intros buf closed Hb; cbn [framed concat].
  - rewrite app_nil_r. unfold items_of. rewrite Hb. cbn [map app]. destruct closed; [|reflexivity].
    destruct buf; reflexivity.
  - unfold items_of. rewrite app_assoc. rewrite (drain_all_app (buf ++ r)).
    destruct (drain_all (buf ++ r)) as [ms [buf'|]] eqn:E; [|reflexivity].
    rewrite (IH buf' closed) by (eapply drain_all_idem; exact E).
    unfold items_of. destruct (drain_all (buf' ++ concat rs)) as [ms' [r'|]]; rewrite map_app, <- app_assoc; reflexivity.
Qed.
Lemma stream_items_spec reads closed : stream_items reads closed = items_of (concat reads) closed.
Proof. unfold stream_items. now rewrite framed_items. Qed.

Lemma drain_frames mcs rest : Forall sendable mcs ->
  drain_all (concat (map frame_of mcs) ++ rest) =
  let (ms, r) := drain_all rest in (mcs ++ ms, r).
Proof.
  induction 1 as [|mc mcs [H1 H2] _ IH]; cbn [map concat app].
  - destruct (drain_all rest). reflexivity.
  - rewrite drain_all_eq, <- app_assoc. unfold frame_of at 1. rewrite frame_decode by assumption.
    rewrite IH. destruct (drain_all rest). reflexivity.
Qed.

(** A proper prefix of a frame is never complete. *)
Lemma prefix_waits mc p q : sendable mc -> frame_of mc = p ++ q -> q <> [] -> decode p = Wait.
Proof.
  intros [H1 H2] E Hq.
  destruct (decode p) as [|mc' rest|] eqn:D; [reflexivity| |].
  - exfalso. pose proof (decode_got_app _ _ _ q D) as D2. rewrite <- E in D2.
    pose proof (frame_decode mc [] H1 H2) as D3. rewrite app_nil_r in D3. unfold frame_of in D2.
    rewrite D3 in D2. injection D2 as _ D2. symmetry in D2. apply app_eq_nil in D2. now destruct D2.
  - exfalso. pose proof (decode_crash_app _ q D) as D2. rewrite <- E in D2.
    pose proof (frame_decode mc [] H1 H2) as D3. rewrite app_nil_r in D3. unfold frame_of in D2. congruence.
Qed.
