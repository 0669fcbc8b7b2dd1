(** CRC-32C as computed by the [crc32c] crate (src/codec.rs:106,
    [crc32c::crc32c(&payload_buf[6..])]): the reflected (least significant bit
    first) bitwise algorithm with polynomial 0x82F63B78, initial value and final
    xor 0xFFFFFFFF. The crate uses tables or CPU instructions for the same
    function; that equality is part of the trusted base. *)
From Verif Require Import Bytes.
Open Scope N_scope.

Definition crc_poly : N := 0x82F63B78.
Definition crc_bit (c : N) : N :=
  if N.odd c then N.lxor (N.shiftr c 1) crc_poly else N.shiftr c 1.
Definition crc_byte (c : N) (b : byte) : N :=
  Nat.iter 8 crc_bit (N.lxor c (b2n b)).
Definition crc_go (c : N) (bs : bytes) : N := fold_left crc_byte bs c.
Definition crc32c (bs : bytes) : N := N.lxor (crc_go 0xFFFFFFFF bs) 0xFFFFFFFF.

(** The standard check value. *)
Example crc32c_check : crc32c (str "123456789") = 0xE3069283.
Proof. vm_compute. reflexivity. Qed.

Lemma crc_bit_bound c : c < u32_max -> crc_bit c < u32_max.
Proof.
  unfold crc_bit. intros H.
  assert (Hs : N.shiftr c 1 < u32_max).
  { rewrite N.shiftr_div_pow2. change (2 ^ 1) with 2.
    eapply N.le_lt_trans; [|exact H]. apply N.div_le_upper_bound; lia. }
  destruct (N.odd c); [|exact Hs].
  change u32_max with (2 ^ 32) in *.
  destruct (N.eq_dec (N.lxor (N.shiftr c 1) crc_poly) 0) as [->|Hn]; [reflexivity|].
  apply N.log2_lt_pow2; [lia|].
  eapply N.le_lt_trans; [apply N.log2_lxor|].
  apply N.max_lub_lt.
  - destruct (N.eq_dec (N.shiftr c 1) 0) as [->|Hz]; [reflexivity|].
    apply N.log2_lt_pow2; [lia|exact Hs].
  - reflexivity.
Qed.

Lemma lxor_bound32 a b : a < u32_max -> b < u32_max -> N.lxor a b < u32_max.
Proof.
  change u32_max with (2 ^ 32). intros Ha Hb.
  destruct (N.eq_dec (N.lxor a b) 0) as [->|Hn]; [reflexivity|].
  apply N.log2_lt_pow2; [lia|].
  eapply N.le_lt_trans; [apply N.log2_lxor|].
  apply N.max_lub_lt.
  - destruct (N.eq_dec a 0) as [->|Hz]; [reflexivity|]. apply N.log2_lt_pow2; [lia|exact Ha].
  - destruct (N.eq_dec b 0) as [->|Hz]; [reflexivity|]. apply N.log2_lt_pow2; [lia|exact Hb].
Qed.

Lemma crc_byte_bound c b : c < u32_max -> crc_byte c b < u32_max.
Proof.
  intros H. unfold crc_byte.
  assert (Hi : N.lxor c (b2n b) < u32_max).
  { apply lxor_bound32; [exact H|]. pose proof (b2n_lt b). unfold u32_max. lia. }
  cbn [Nat.iter nat_rect]. repeat apply crc_bit_bound. exact Hi.
Qed.

Lemma crc_go_bound bs : forall c, c < u32_max -> crc_go c bs < u32_max.
Proof.
  induction bs as [|b bs IH]; intros c H; [exact H|].
  cbn [crc_go fold_left]. apply IH. now apply crc_byte_bound.
Qed.

Lemma crc32c_bound bs : crc32c bs < u32_max.
Proof. unfold crc32c. apply lxor_bound32; [apply crc_go_bound|]; reflexivity. Qed.
