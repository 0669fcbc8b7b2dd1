(** Bytes, big-endian integers and small list utilities shared by the model.
    Not a model of a file of the repository: it fixes the data types that
    Rust's [u8], [Vec<u8>], [&[u8]], [String] (as UTF-8 bytes) become here. *)
From Coq Require Export List NArith ZArith Lia Bool.
From Coq Require Import Init.Byte Strings.Byte Strings.String Strings.Ascii.
Export ListNotations.
Export Coq.Strings.String.StringSyntax.
From Coq Require Export ZifyBool ZifyNat ZifyN.
Open Scope list_scope.

Notation byte := Init.Byte.byte.
Notation bytes := (list byte).

(** Rust [u8 as u64]. *)
Definition b2n (b : byte) : N := Byte.to_N b.

(** Rust [x as u8]: truncation to the low 8 bits. *)
Definition n2b (n : N) : byte :=
  match Byte.of_N (n mod 256) with Some b => b | None => x00 end.

Lemma b2n_lt b : (b2n b < 256)%N.
Proof. unfold b2n. pose proof (Byte.to_N_bounded b). lia. Qed.

Lemma n2b_b2n b : n2b (b2n b) = b.
Proof.
  unfold n2b, b2n. rewrite N.mod_small.
  - now rewrite Byte.of_to_N.
  - apply b2n_lt.
Qed.

Lemma b2n_n2b n : b2n (n2b n) = (n mod 256)%N.
Proof.
  unfold n2b, b2n.
  destruct (Byte.of_N (n mod 256)) as [b|] eqn:E.
  - now apply Byte.to_of_N in E.
  - exfalso. apply Byte.of_N_None_iff in E.
    pose proof (N.mod_lt n 256). lia.
Qed.

Lemma b2n_n2b_small n : (n < 256)%N -> b2n (n2b n) = n.
Proof. intros H. rewrite b2n_n2b. now apply N.mod_small. Qed.

Lemma b2n_inj a b : b2n a = b2n b -> a = b.
Proof. intros H. rewrite <- (n2b_b2n a), <- (n2b_b2n b). now rewrite H. Qed.

Definition byte_eqb (a b : byte) : bool := Byte.eqb a b.
Lemma byte_eqb_spec a b : byte_eqb a b = true <-> a = b.
Proof.
  unfold byte_eqb. split; intros H.
  - now apply Byte.byte_dec_bl.
  - now apply Byte.byte_dec_lb.
Qed.
Lemma byte_eqb_refl a : byte_eqb a a = true.
Proof. now apply byte_eqb_spec. Qed.

Fixpoint bytes_eqb (a b : bytes) : bool :=
  match a, b with
  | [], [] => true
  | x :: xs, y :: ys => byte_eqb x y && bytes_eqb xs ys
  | _, _ => false
  end.
Lemma bytes_eqb_spec a b : bytes_eqb a b = true <-> a = b.
Proof.
  revert b. induction a as [|x xs IH]; intros [|y ys]; simpl; split; intros H;
    try discriminate; try reflexivity.
  - apply andb_true_iff in H. destruct H as [H1 H2].
    apply byte_eqb_spec in H1. apply IH in H2. now subst.
  - injection H as -> ->. rewrite byte_eqb_refl. simpl. now apply IH.
Qed.
Lemma bytes_eqb_refl a : bytes_eqb a a = true.
Proof. now apply bytes_eqb_spec. Qed.
Lemma bytes_eqb_neq a b : bytes_eqb a b = false <-> a <> b.
Proof.
  split; intros H.
  - intros E. apply bytes_eqb_spec in E. congruence.
  - destruct (bytes_eqb a b) eqn:E; [|reflexivity].
    apply bytes_eqb_spec in E. contradiction.
Qed.
Definition bytes_dec (a b : bytes) : {a = b} + {a <> b} := list_eq_dec Byte.byte_eq_dec a b.

(** A string literal as bytes. *)
Definition str (s : string) : bytes := list_byte_of_string s.
Arguments str s%string_scope.

(** [N]-valued length (Rust [len()]); [nat] is kept out of large numbers. *)
Definition blen (b : bytes) : N := N.of_nat (List.length b).
Lemma blen_app a b : blen (a ++ b) = (blen a + blen b)%N.
Proof. unfold blen. rewrite app_length. lia. Qed.
Lemma blen_nil : blen [] = 0%N. Proof. reflexivity. Qed.
Lemma blen_cons x b : blen (x :: b) = (1 + blen b)%N.
Proof. unfold blen. simpl List.length. lia. Qed.

(** Big-endian integers: [BufMut::put_u16/put_u32], nom's [be_u16/be_u32],
    [Buf::get_u32], [u32::to_be_bytes]. *)
Fixpoint be_bytes (k : nat) (n : N) : bytes :=
  match k with
  | O => []
  | S k' => be_bytes k' (n / 256) ++ [n2b n]
  end.
Definition be_val (b : bytes) : N := fold_left (fun acc x => (acc * 256 + b2n x)%N) b 0%N.

Lemma be_bytes_length k n : List.length (be_bytes k n) = k.
Proof. revert n. induction k as [|k IH]; intros n; simpl; [reflexivity|]. rewrite app_length, IH. simpl. lia. Qed.

Lemma be_val_snoc b x : be_val (b ++ [x]) = (be_val b * 256 + b2n x)%N.
Proof. unfold be_val. rewrite fold_left_app. reflexivity. Qed.

Lemma be_val_be_bytes k n : be_val (be_bytes k n) = (n mod 256 ^ N.of_nat k)%N.
Proof.
  revert n. induction k as [|k IH]; intros n.
  - simpl be_bytes. cbn [N.of_nat]. rewrite N.pow_0_r, N.mod_1_r. reflexivity.
  - cbn [be_bytes]. rewrite be_val_snoc, IH, b2n_n2b.
    replace (N.of_nat (S k)) with (N.succ (N.of_nat k)) by lia.
    rewrite N.pow_succ_r'.
    rewrite (N.mul_comm 256).
    assert (H256 : (256 <> 0)%N) by lia.
    assert (Hp : (256 ^ N.of_nat k <> 0)%N) by (apply N.pow_nonzero; lia).
    rewrite (N.mul_comm (256 ^ _)).
    rewrite (N.mod_mul_r n 256 (256 ^ N.of_nat k)) by assumption.
    lia.
Qed.

Lemma be_val_be_bytes_small k n : (n < 256 ^ N.of_nat k)%N -> be_val (be_bytes k n) = n.
Proof. intros H. rewrite be_val_be_bytes. now apply N.mod_small. Qed.

Lemma be_val_bound b : (be_val b < 256 ^ blen b)%N.
Proof.
  induction b as [|x b IH] using rev_ind.
  - reflexivity.
  - rewrite be_val_snoc, blen_app.
    replace (blen [x]) with 1%N by reflexivity.
    rewrite N.pow_add_r, N.pow_1_r. pose proof (b2n_lt x). nia.
Qed.

Lemma be_bytes_be_val b : be_bytes (List.length b) (be_val b) = b.
Proof.
  induction b as [|x b IH] using rev_ind; [reflexivity|].
  rewrite app_length. simpl List.length. rewrite Nat.add_1_r. cbn [be_bytes].
  rewrite be_val_snoc.
  assert (Hx := b2n_lt x).
  replace ((be_val b * 256 + b2n x) / 256)%N with (be_val b).
  2:{ rewrite N.add_comm, N.div_add by lia. rewrite N.div_small by assumption. reflexivity. }
  rewrite IH. f_equal. f_equal.
  apply b2n_inj. rewrite b2n_n2b.
  rewrite N.add_comm, N.mod_add by lia. now apply N.mod_small.
Qed.

Definition u32_max : N := 4294967296%N.   (* 2^32 *)
Definition u64_max : N := 18446744073709551616%N.  (* 2^64 *)
Lemma u32_max_pow : u32_max = (256 ^ N.of_nat 4)%N. Proof. reflexivity. Qed.

Definition put_u32 (n : N) : bytes := be_bytes 4 n.
Definition put_u16 (n : N) : bytes := be_bytes 2 n.

(** [split_at k b]: nom's [take(k)], streaming flavour: [None] stands for
    [Err::Incomplete] when fewer than [k] bytes are there. *)
Definition take_n (k : N) (b : bytes) : option (bytes * bytes) :=
  if (k <=? blen b)%N then Some (firstn (N.to_nat k) b, skipn (N.to_nat k) b) else None.

Lemma take_n_app a b k : k = blen a -> take_n k (a ++ b) = Some (a, b).
Proof.
  intros ->. unfold take_n. rewrite blen_app.
  destruct (N.leb_spec (blen a) (blen a + blen b)); [|lia].
  unfold blen. rewrite Nnat.Nat2N.id.
  rewrite firstn_app, Nat.sub_diag, firstn_all, app_nil_r.
  rewrite skipn_app, Nat.sub_diag, skipn_all. reflexivity.
Qed.

Lemma take_n_some k b x y : take_n k b = Some (x, y) -> b = x ++ y /\ blen x = k.
Proof.
  unfold take_n. destruct (N.leb_spec k (blen b)) as [H|H]; [|discriminate].
  intros E. injection E as <- <-. split.
  - now rewrite firstn_skipn.
  - unfold blen in *. rewrite firstn_length. lia.
Qed.

Lemma take_n_none k b : take_n k b = None <-> (blen b < k)%N.
Proof.
  unfold take_n. destruct (N.leb_spec k (blen b)) as [H|H]; split; intros E; try discriminate; try lia; reflexivity.
Qed.

(** nom's streaming [be_u32]/[be_u16]. *)
Definition get_be (k : nat) (b : bytes) : option (N * bytes) :=
  match take_n (N.of_nat k) b with
  | Some (x, y) => Some (be_val x, y)
  | None => None
  end.

Lemma get_be_put k n rest : (n < 256 ^ N.of_nat k)%N ->
  get_be k (be_bytes k n ++ rest) = Some (n, rest).
Proof.
  intros H. unfold get_be. rewrite (take_n_app (be_bytes k n) rest).
  - now rewrite be_val_be_bytes_small.
  - unfold blen. now rewrite be_bytes_length.
Qed.
