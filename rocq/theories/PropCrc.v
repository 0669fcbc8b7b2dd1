(** C53: what the checksum of a sent frame protects against. *)
From Verif Require Import Bytes Errors Wire Proto Crc CrcFacts Codec SpecFrame SpecCodec CodecFacts PropCodec.
Open Scope N_scope.

(** * Specification
    [burst d d']: [d'] is [d] with some bits changed, all of them within 32
    consecutive bits (bits of a byte counted from the lowest, the order in which
    the checksum takes them). *)
Definition bits_of (d : bytes) : list bool := flat_map byte_bits d.
Definition burst (d d' : bytes) : Prop :=
  exists pre x y post, bits_of d = pre ++ x ++ post /\ bits_of d' = pre ++ y ++ post /\
    length x = length y /\ (length x <= 32)%nat /\ x <> y.

(** * One step of the division loses nothing *)
Lemma crc_bit_top c : c < u32_max -> N.testbit (crc_bit c) 31 = N.odd c.
Proof.
  intros H. assert (E : N.testbit (N.shiftr c 1) 31 = false).
  { rewrite N.shiftr_spec by lia. apply testbit_high; [exact H|]. reflexivity. }
  unfold crc_bit. destruct (N.odd c); [|exact E]. rewrite N.lxor_spec, E. reflexivity.
Qed.
Lemma crc_bit_inj a b : a < u32_max -> b < u32_max -> crc_bit a = crc_bit b -> a = b.
Proof.
  intros Ha Hb H. assert (Ho : N.odd a = N.odd b) by (rewrite <- !crc_bit_top by assumption; now rewrite H).
  unfold crc_bit in H. rewrite Ho in H.
  assert (Hs : N.shiftr a 1 = N.shiftr b 1).
  { destruct (N.odd b); [|exact H]. apply N.bits_inj. intros i.
    apply (f_equal (fun z => N.testbit z i)) in H. rewrite !N.lxor_spec in H.
    destruct (N.testbit (N.shiftr a 1) i), (N.testbit (N.shiftr b 1) i), (N.testbit crc_poly i); cbn in H; congruence. }
  rewrite (N.div2_odd a), (N.div2_odd b), Ho, !N.div2_spec, Hs. reflexivity.
Qed.
Lemma iter_inj k : forall a b, a < u32_max -> b < u32_max -> Nat.iter k crc_bit a = Nat.iter k crc_bit b -> a = b.
Proof.
  assert (B : forall k a, a < u32_max -> Nat.iter k crc_bit a < u32_max).
  { clear k. intros k. induction k as [|k IH]; intros a Ha; [exact Ha|]. cbn [Nat.iter nat_rect]. apply crc_bit_bound. now apply IH. }
  induction k as [|k IH]; intros a b Ha Hb H; [exact H|]. cbn [Nat.iter nat_rect] in H.
  apply crc_bit_inj in H; [|now apply B..]. now apply IH.
Qed.
Lemma feed_inj a b bit : a < u32_max -> b < u32_max -> feed a bit = feed b bit -> a = b.
Proof.
  intros Ha Hb H. unfold feed in H.
  assert (Hx : N.b2n bit < u32_max) by (destruct bit; reflexivity).
  apply crc_bit_inj in H; [|now apply lxor_bound32..].
  apply (f_equal (fun z => N.lxor z (N.b2n bit))) in H. now rewrite !N.lxor_assoc, N.lxor_nilpotent, !N.lxor_0_r in H.
Qed.
Lemma fold_feed_inj l : forall a b, a < u32_max -> b < u32_max -> fold_left feed l a = fold_left feed l b -> a = b.
Proof.
  induction l as [|x l IH]; intros a b Ha Hb H; [exact H|]. cbn [fold_left] in H.
  apply IH in H; [|now apply feed_bound..]. now apply feed_inj in H.
Qed.

(** A list of bits as a number, lowest first. *)
Lemma bits_value_bound l : bits_value l < 2 ^ N.of_nat (length l).
Proof.
  induction l as [|b l IH]; [reflexivity|]. cbn [bits_value length].
  replace (N.of_nat (S (length l))) with (N.succ (N.of_nat (length l))) by lia. rewrite N.pow_succ_r'.
  destruct b; lia.
Qed.
Lemma bits_value_testbit l : forall i, (i < length l)%nat -> N.testbit (bits_value l) (N.of_nat i) = nth i l false.
Proof.
  induction l as [|b l IH]; intros i Hi; [cbn in Hi; lia|]. cbn [bits_value].
  destruct i as [|i]; cbn [nth].
  - destruct b; [|cbn [N.of_nat]; rewrite N.add_0_l; apply N.testbit_even_0].
    rewrite N.add_comm. apply N.testbit_odd_0.
  - cbn [length] in Hi. replace (N.of_nat (S i)) with (N.succ (N.of_nat i)) by lia.
    destruct b; [rewrite N.add_comm, N.testbit_odd_succ by lia|rewrite N.add_0_l, N.testbit_even_succ by lia]; apply IH; lia.
Qed.
Lemma bits_value_bits l : map (fun i => N.testbit (bits_value l) (N.of_nat i)) (seq 0 (length l)) = l.
Proof.
  apply nth_ext with (d := false) (d' := false); [now rewrite map_length, seq_length|].
  intros i Hi. rewrite map_length, seq_length in Hi.
  rewrite (nth_indep _ false (N.testbit (bits_value l) (N.of_nat 0))) by (now rewrite map_length, seq_length).
  rewrite (map_nth (fun i => N.testbit (bits_value l) (N.of_nat i)) (seq 0 (length l)) 0%nat i), seq_nth by exact Hi.
  cbn [Nat.add]. now apply bits_value_testbit.
Qed.
Lemma window_inj x y c : c < u32_max -> length x = length y -> (length x <= 32)%nat ->
  fold_left feed x c = fold_left feed y c -> x = y.
Proof.
  intros Hc Hl H32 H.
  rewrite <- (bits_value_bits x), <- (bits_value_bits y) in H. rewrite <- Hl in H.
  assert (B : forall l, length l = length x -> bits_value l < u32_max).
  { intros l E. eapply N.lt_le_trans; [apply bits_value_bound|]. rewrite E.
    change u32_max with (2 ^ 32). apply N.pow_le_mono_r; lia. }
  rewrite <- !iter_feed in H; [|rewrite Hl; apply bits_value_bound|apply bits_value_bound].
  apply iter_inj in H; [|apply lxor_bound32; auto..].
  apply (f_equal (fun z => N.lxor c z)) in H. rewrite <- !N.lxor_assoc, N.lxor_nilpotent, !N.lxor_0_l in H.
  rewrite <- (bits_value_bits x), <- (bits_value_bits y), H, Hl. reflexivity.
Qed.

(** C53. Two byte strings that differ, but only within 32 consecutive bits, never
    have the same checksum. *)
Theorem C53_burst_changes_checksum : forall d d', burst d d' -> spec_crc d <> spec_crc d'.
Proof.
  intros d d' (pre & x & y & post & E & E' & Hl & H32 & Hne) H. apply Hne.
  rewrite <- !crc32c_spec in H. unfold crc32c in H.
  apply (f_equal (fun z => N.lxor z 0xFFFFFFFF)) in H. rewrite !N.lxor_assoc, N.lxor_nilpotent, !N.lxor_0_r in H.
  rewrite !crc_go_feed in H. fold (bits_of d) (bits_of d') in H. rewrite E, E', !fold_left_app in H.
  destruct (fold_feed pre 0xFFFFFFFF eq_refl) as [_ Hp].
  assert (B : forall l, fold_left feed l (fold_left feed pre 0xFFFFFFFF) < u32_max) by (intros l; now apply fold_feed).
  apply fold_feed_inj in H; [|apply B..]. eapply window_inj; eassumption.
Qed.
Print Assumptions C53_burst_changes_checksum.

(** The same for whole bytes: any change within four consecutive bytes is a burst. *)
Lemma byte_bits_inj a b : byte_bits a = byte_bits b -> a = b.
Proof.
  assert (E : forall x, n2b (bits_value (byte_bits x)) = x) by (intros x; destruct x; vm_compute; reflexivity).
  intros H. rewrite <- (E a), <- (E b). now rewrite H.
Qed.
Lemma app_inj_len {A} (a b c d : list A) : length a = length c -> a ++ b = c ++ d -> a = c /\ b = d.
Proof.
  revert c. induction a as [|x a IH]; intros [|y c] Hl H; cbn in Hl; try lia; [now split|].
  cbn [app] in H. injection H as -> H. apply IH in H; [|lia]. destruct H as [-> ->]. now split.
Qed.
Lemma bits_of_inj u : forall v, length u = length v -> bits_of u = bits_of v -> u = v.
Proof.
  induction u as [|a u IH]; intros [|b v] Hl H; cbn in Hl; try lia; [reflexivity|].
  unfold bits_of in H. cbn [flat_map] in H. apply app_inj_len in H; [|reflexivity].
  destruct H as [H1 H2]. apply byte_bits_inj in H1. subst b. f_equal. apply IH; [lia|exact H2].
Qed.
Lemma four_bytes_burst p u v q : length u = length v -> (length u <= 4)%nat -> u <> v -> burst (p ++ u ++ q) (p ++ v ++ q).
Proof.
  intros Hl H4 Hne. exists (bits_of p), (bits_of u), (bits_of v), (bits_of q).
  unfold bits_of. rewrite !flat_map_app.
  assert (L : forall w, length (flat_map byte_bits w) = (8 * length w)%nat).
  { intros w. induction w as [|a w IH]; [reflexivity|]. cbn [flat_map length]. rewrite app_length, IH. cbn [byte_bits map length]. lia. }
  repeat split; auto; rewrite ?L; [lia|lia|]. intros H. apply Hne. now apply bits_of_inj.
Qed.

(** Reading a frame whose checksummed part or its checksum was replaced. *)
Lemma strict_read_section cmd crc tail :
  4 + blen cmd + 6 + blen tail < u32_max -> crc < u32_max -> crc <> spec_crc tail ->
  strict_read (be32 (4 + blen cmd + 6 + blen tail) ++ be32 (blen cmd) ++ cmd ++ n2b 0x0e :: n2b 0x01 :: be32 crc ++ tail) = None.
Proof.
  intros Ht Hc Hne. unfold strict_read.
  rewrite rd32_get, (be32_put (4 + _ + _ + _)). unfold put_u32.
  rewrite get_be_put by (change (256 ^ N.of_nat 4) with u32_max; lia).
  assert (E : blen (be32 (blen cmd) ++ cmd ++ n2b 0x0e :: n2b 0x01 :: be32 crc ++ tail) = 4 + blen cmd + 6 + blen tail).
  { rewrite !be32_put, !blen_app, !blen_cons, !blen_app, !put_u32_len. lia. }
  rewrite E, N.eqb_refl. cbn [negb].
  rewrite rd32_get, be32_put. unfold put_u32. rewrite get_be_put by (change (256 ^ N.of_nat 4) with u32_max; lia).
  rewrite cut_take, take_n_app by reflexivity.
  replace ((b2n (n2b 14) =? 14) && (b2n (n2b 1) =? 1)) with true by reflexivity. cbn [negb].
  rewrite rd32_get, be32_put. unfold put_u32. rewrite get_be_put by exact Hc.
  destruct (N.eqb_spec crc (spec_crc tail)); [contradiction|reflexivity].
Qed.

(** C53. Every frame with a payload that the client writes ends with the part the
    checksum covers: metadata size, metadata, data. A strict reader refuses the
    frame after any corruption of that part within 32 consecutive bits, and after
    any change of the magic number or the checksum itself. *)
Theorem C53_corruption_refused : forall oc mc p b,
  sendable mc -> mc_payload mc = Some p -> encode oc mc = Ok b ->
  exists head six,
    let tail := be32 (blen (write_msg (pl_meta p))) ++ write_msg (pl_meta p) ++ pl_data p in
    b = head ++ six ++ tail /\ length six = 6%nat /\
    (forall tail', burst tail tail' -> strict_read (head ++ six ++ tail') = None) /\
    (forall six', length six' = 6%nat -> six' <> six -> strict_read (head ++ six' ++ tail) = None).
Proof.
  intros oc mc p b [Hok Hs] Hp He. rewrite <- u32_pow in Hs. apply encode_bytes in He.
  unfold sect, frame_total in *. rewrite Hp in *. set (tail := be32 (blen (write_msg (pl_meta p))) ++ write_msg (pl_meta p) ++ pl_data p).
  set (cmd := write_msg (mc_cmd mc)) in *.
  assert (Hlen : blen tail = 4 + blen (write_msg (pl_meta p)) + blen (pl_data p)).
  { unfold tail. rewrite be32_put, !blen_app, put_u32_len. lia. }
  exists (be32 (4 + blen cmd + 6 + blen tail) ++ be32 (blen cmd) ++ cmd), (n2b 0x0e :: n2b 0x01 :: be32 (spec_crc tail)).
  cbn zeta. fold tail. split; [|split; [|split]].
  - rewrite He. unfold frame_bytes. cbn [section_bytes]. fold tail.
    match goal with |- be32 ?u ++ _ = _ => replace u with (4 + blen cmd + 6 + blen tail) end.
    2:{ rewrite !blen_app, !blen_cons, !blen_app, !be32_put, !put_u32_len. lia. }
    rewrite <- !app_assoc. reflexivity.
  - unfold be32. reflexivity.
  - intros tail' Hb.
    assert (L : blen tail' = blen tail).
    { destruct Hb as (pre & x & y & post & E & E' & Hl & _).
      assert (L : forall w, length (bits_of w) = (8 * length w)%nat).
      { intros w. unfold bits_of. induction w as [|a w IH]; [reflexivity|]. cbn [flat_map length]. rewrite app_length, IH. cbn [byte_bits map length]. lia. }
      unfold blen. pose proof (L tail) as L1. pose proof (L tail') as L2. rewrite E in L1. rewrite E' in L2.
      rewrite !app_length in *. lia. }
    rewrite <- L. rewrite <- !app_assoc. cbn [app]. apply strict_read_section; [lia| |].
    + rewrite <- crc32c_spec. apply crc32c_bound.
    + now apply C53_burst_changes_checksum.
  - intros six' L6 Hne. rewrite <- !app_assoc.
    destruct six' as [|m1 [|m2 [|c1 [|c2 [|c3 [|c4 [|]]]]]]]; cbn in L6; try lia. clear L6. cbn [app].
    destruct (N.eq_dec (b2n m1) 0x0e) as [E1|E1]; [destruct (N.eq_dec (b2n m2) 0x01) as [E2|E2]|].
    + assert (M1 : m1 = n2b 0x0e) by (rewrite <- (n2b_b2n m1), E1; reflexivity).
      assert (M2 : m2 = n2b 0x01) by (rewrite <- (n2b_b2n m2), E2; reflexivity). subst m1 m2.
      set (crc' := be_val [c1; c2; c3; c4]).
      assert (Ec : [c1; c2; c3; c4] = be32 crc') by (rewrite be32_put; symmetry; exact (be_bytes_be_val [c1; c2; c3; c4])).
      change (c1 :: c2 :: c3 :: c4 :: tail) with ([c1; c2; c3; c4] ++ tail). rewrite Ec.
      apply strict_read_section; [lia| |].
      * apply (be_val_bound [c1; c2; c3; c4]).
      * intros X. apply Hne. rewrite <- X, <- Ec. reflexivity.
    + unfold strict_read. rewrite rd32_get, (be32_put (4 + _ + _ + _)). unfold put_u32.
      rewrite get_be_put by (change (256 ^ N.of_nat 4) with u32_max; lia).
      destruct (negb _); [reflexivity|].
      rewrite rd32_get, be32_put. unfold put_u32. rewrite get_be_put by (change (256 ^ N.of_nat 4) with u32_max; lia).
      rewrite cut_take, take_n_app by reflexivity.
      destruct (N.eqb_spec (b2n m1) 14); [|reflexivity]. destruct (N.eqb_spec (b2n m2) 1); [contradiction|reflexivity].
    + unfold strict_read. rewrite rd32_get, (be32_put (4 + _ + _ + _)). unfold put_u32.
      rewrite get_be_put by (change (256 ^ N.of_nat 4) with u32_max; lia).
      destruct (negb _); [reflexivity|].
      rewrite rd32_get, be32_put. unfold put_u32. rewrite get_be_put by (change (256 ^ N.of_nat 4) with u32_max; lia).
      rewrite cut_take, take_n_app by reflexivity.
      destruct (N.eqb_spec (b2n m1) 14); [contradiction|reflexivity].
Qed.
Print Assumptions C53_corruption_refused.

(** The last byte of the data of the golden frame is damaged: the strict reader
    refuses the frame, the client's own decoder delivers it. *)
Definition damaged : bytes := firstn 64 golden1 ++ [n2b 0x39].
Example C53_meets : burst golden1 damaged /\ strict_read golden1 <> None /\ strict_read damaged = None /\
  (exists mc, decode damaged = Got mc []).
Proof.
  split; [|split; [vm_compute; discriminate|split; [vm_compute; reflexivity|eexists; vm_compute; reflexivity]]].
  replace golden1 with (firstn 64 golden1 ++ [n2b 0x38] ++ []) by reflexivity.
  change damaged with (firstn 64 golden1 ++ [n2b 0x39] ++ []).
  apply four_bytes_burst; [reflexivity|cbn; lia|]. vm_compute. discriminate.
Qed.
