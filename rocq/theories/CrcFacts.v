(** The checksum of the model equals polynomial division (SpecFrame). *)
From Verif Require Import Bytes Crc SpecFrame.
Open Scope N_scope.

Definition bits32 (c : N) : list bool := map (fun i => N.testbit c (N.of_nat i)) (seq 0 32).

Lemma crc_bit_lxor a b : crc_bit (N.lxor a b) = N.lxor (crc_bit a) (crc_bit b).
Proof.
  unfold crc_bit. rewrite <- !N.bit0_odd, N.lxor_spec, N.shiftr_lxor.
  destruct (N.testbit a 0), (N.testbit b 0); cbn [xorb];
    generalize (N.shiftr a 1) (N.shiftr b 1); intros x y;
    apply N.bits_inj; intros i; rewrite !N.lxor_spec;
    destruct (N.testbit x i), (N.testbit y i), (N.testbit crc_poly i); reflexivity.
Qed.
Lemma crc_bit_double k : crc_bit (2 * k) = k.
Proof.
  unfold crc_bit. rewrite N.odd_mul. cbn [N.odd andb].
  rewrite N.shiftr_div_pow2. change (2 ^ 1) with 2. rewrite N.mul_comm. now rewrite N.div_mul.
Qed.

(** Feeding one bit. *)
Definition feed (c : N) (bit : bool) : N := crc_bit (N.lxor c (N.b2n bit)).

Lemma b2n_split x : x = N.lxor (N.b2n (N.testbit x 0)) (2 * (x / 2)).
Proof.
  apply N.bits_inj. intros i. rewrite N.lxor_spec.
  destruct (N.eq_dec i 0) as [->|Hi].
  - rewrite N.testbit_even_0, xorb_false_r. now destruct (N.testbit x 0).
  - replace i with (N.succ (N.pred i)) by lia.
    rewrite N.testbit_even_succ by lia.
    rewrite <- (N.div2_bits x).
    destruct (N.testbit x 0); cbn [N.b2n].
    + rewrite (N.bits_above_log2 1); [now rewrite xorb_false_l|]. cbn. lia.
    + now rewrite N.bits_0, xorb_false_l.
Qed.

Lemma feed_lxor_step c x : crc_bit (N.lxor c x) = N.lxor (feed c (N.testbit x 0)) (x / 2).
Proof.
  rewrite (b2n_split x) at 1. unfold feed.
  rewrite <- N.lxor_assoc, crc_bit_lxor, crc_bit_double. reflexivity.
Qed.

Lemma iter_feed k : forall c x, x < 2 ^ N.of_nat k ->
  Nat.iter k crc_bit (N.lxor c x) =
  fold_left feed (map (fun i => N.testbit x (N.of_nat i)) (seq 0 k)) c.
Proof.
  induction k as [|k IH]; intros c x Hx.
  - cbn [N.of_nat] in Hx. change (2 ^ 0) with 1 in Hx.
    replace x with 0 by lia. cbn. apply N.lxor_0_r.
  - cbn [seq map fold_left]. rewrite <- seq_shift, map_map.
    assert (E : Nat.iter (S k) crc_bit (N.lxor c x) = Nat.iter k crc_bit (crc_bit (N.lxor c x))).
    { clear. generalize (N.lxor c x). intros y. induction k as [|k IH]; [reflexivity|].
      change (crc_bit (Nat.iter (S k) crc_bit y) = crc_bit (Nat.iter k crc_bit (crc_bit y))). now f_equal. }
    rewrite E, feed_lxor_step, IH.
    + f_equal. apply map_ext. intros i. rewrite N.div2_bits. f_equal. lia.
    + replace (N.of_nat (S k)) with (N.succ (N.of_nat k)) in Hx by lia.
      rewrite N.pow_succ_r' in Hx. apply N.div_lt_upper_bound; lia.
Qed.

Lemma crc_byte_feed c b : crc_byte c b = fold_left feed (byte_bits b) c.
Proof.
  unfold crc_byte. rewrite iter_feed.
  - reflexivity.
  - pose proof (b2n_lt b). change (2 ^ N.of_nat 8) with 256. lia.
Qed.

Lemma crc_go_feed bs : forall c, crc_go c bs = fold_left feed (flat_map byte_bits bs) c.
Proof.
  induction bs as [|b bs IH]; intros c; [reflexivity|].
  cbn [flat_map]. rewrite fold_left_app, <- crc_byte_feed. apply IH.
Qed.

Lemma testbit_high c i : c < u32_max -> 32 <= i -> N.testbit c i = false.
Proof.
  intros Hc Hi. destruct (N.eq_dec c 0) as [->|Hn]; [apply N.bits_0|].
  apply N.bits_above_log2. eapply N.lt_le_trans; [|exact Hi].
  apply N.log2_lt_pow2; [lia|exact Hc].
Qed.

Lemma bits32_lxor_low c bit : c < u32_max ->
  bits32 (N.lxor c (N.b2n bit)) = match bits32 c with [] => [] | t :: l => xorb t bit :: l end.
Proof.
  intros _. unfold bits32. cbn [seq map].
  assert (H : forall i, (0 < i)%nat -> N.testbit (N.lxor c (N.b2n bit)) (N.of_nat i) = N.testbit c (N.of_nat i)).
  { intros i Hi. rewrite N.lxor_spec.
    replace (N.testbit (N.b2n bit) (N.of_nat i)) with false; [apply xorb_false_r|].
    destruct bit; cbn [N.b2n].
    - symmetry. apply N.bits_above_log2. change (N.log2 1) with 0. lia.
    - now rewrite N.bits_0. }
  apply f_equal2; [rewrite N.lxor_spec; now destruct bit|].
  rewrite !H by lia. reflexivity.
Qed.

Lemma bits32_shift c : c < u32_max ->
  bits32 (N.shiftr c 1) = tl (bits32 c) ++ [false].
Proof.
  intros H. unfold bits32. cbn [seq map tl app].
  repeat rewrite N.shiftr_spec by lia.
  repeat (apply f_equal2; [reflexivity|]).
  apply f_equal2; [|reflexivity]. apply testbit_high; [exact H|lia].
Qed.

Lemma bits32_lxor_poly c : bits32 (N.lxor c crc_poly) = xor_bits (bits32 c) gen_poly.
Proof.
  unfold bits32, gen_poly. cbn [seq map xor_bits].
  repeat rewrite N.lxor_spec.
  repeat (apply f_equal2; [f_equal; vm_compute; reflexivity|]). reflexivity.
Qed.

Lemma feed_bound c bit : c < u32_max -> feed c bit < u32_max.
Proof.
  intros H. apply crc_bit_bound, lxor_bound32; [exact H|]. destruct bit; reflexivity.
Qed.

Lemma feed_div_step c bit : c < u32_max -> bits32 (feed c bit) = div_step (bits32 c) bit.
Proof.
  intros H. unfold feed, crc_bit.
  assert (Hx : N.lxor c (N.b2n bit) < u32_max).
  { apply lxor_bound32; [exact H|]. destruct bit; reflexivity. }
  assert (E1 : bits32 (N.shiftr (N.lxor c (N.b2n bit)) 1) = tl (bits32 c) ++ [false]).
  { rewrite (bits32_shift _ Hx), (bits32_lxor_low _ _ H). reflexivity. }
  rewrite <- N.bit0_odd, N.lxor_spec.
  replace (N.testbit (N.b2n bit) 0) with bit by (now destruct bit).
  change (div_step (bits32 c) bit) with
    (if xorb (N.testbit c 0) bit then xor_bits (tl (bits32 c) ++ [false]) gen_poly else tl (bits32 c) ++ [false]).
  destruct (xorb (N.testbit c 0) bit).
  - rewrite bits32_lxor_poly, E1. reflexivity.
  - rewrite E1. reflexivity.
Qed.

Lemma fold_feed l : forall c, c < u32_max ->
  bits32 (fold_left feed l c) = fold_left div_step l (bits32 c) /\ fold_left feed l c < u32_max.
Proof.
  induction l as [|b l IH]; intros c H; [now split|].
  cbn [fold_left]. rewrite <- (feed_div_step c b H). apply IH. now apply feed_bound.
Qed.

Lemma bits_value_go c k : forall s,
  bits_value (map (fun i => N.testbit c (N.of_nat i)) (seq s k)) = (c / 2 ^ N.of_nat s) mod 2 ^ N.of_nat k.
Proof.
  induction k as [|k IH]; intros s.
  - cbn. now rewrite N.mod_1_r.
  - cbn [seq map bits_value]. rewrite IH.
    replace (N.of_nat (S k)) with (N.succ (N.of_nat k)) by lia.
    replace (N.of_nat (S s)) with (N.succ (N.of_nat s)) by lia.
    rewrite !N.pow_succ_r'.
    assert (Hp : 2 ^ N.of_nat k <> 0) by (apply N.pow_nonzero; lia).
    assert (Hq : 2 ^ N.of_nat s <> 0) by (apply N.pow_nonzero; lia).
    rewrite (N.mod_mul_r (c / 2 ^ N.of_nat s) 2 (2 ^ N.of_nat k)) by lia.
    rewrite (N.mul_comm 2 (2 ^ N.of_nat s)), <- N.div_div by lia.
    f_equal. rewrite N.testbit_spec' || idtac.
    pose proof (N.testbit_spec' c (N.of_nat s)) as Ht.
    destruct (N.testbit c (N.of_nat s)); cbn [N.b2n] in Ht; lia.
Qed.

Lemma bits_value_bits32 c : c < u32_max -> bits_value (bits32 c) = c.
Proof.
  intros H. unfold bits32. rewrite bits_value_go. cbn [N.of_nat].
  rewrite N.pow_0_r, N.div_1_r. now apply N.mod_small.
Qed.

Lemma bits32_not c : bits32 (N.lxor c 0xFFFFFFFF) = map negb (bits32 c).
Proof.
  unfold bits32. cbn [seq map]. repeat rewrite N.lxor_spec.
  repeat (apply f_equal2; [rewrite <- xorb_true_r; f_equal; vm_compute; reflexivity|]). reflexivity.
Qed.

Theorem crc32c_spec data : crc32c data = spec_crc data.
Proof.
  unfold spec_crc, crc_register.
  change (repeat true 32) with (bits32 0xFFFFFFFF).
  destruct (fold_feed (flat_map byte_bits data) 0xFFFFFFFF eq_refl) as [E _].
  rewrite <- E, <- crc_go_feed, <- bits32_not.
  symmetry. apply bits_value_bits32. apply (crc32c_bound data).
Qed.
