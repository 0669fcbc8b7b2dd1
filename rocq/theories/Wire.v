(** Protobuf wire level, as used by the [protobuf] 3.x crate behind
    [write_to_bytes]/[compute_size]/[parse_from_bytes]
    (src/codec.rs:85-86,103-104,132,142; src/message.rs:453-454,673).
    The crate itself is not in the repository: this is the proto2 encoding
    as documented. Simplifications: groups (wire types 3 and 4, unused by
    pulsar.proto) are rejected instead of skipped. *)
From Verif Require Import Bytes.
Open Scope N_scope.

Arguments N.div : simpl never.
Arguments N.modulo : simpl never.
Arguments N.mul : simpl never.
Arguments N.add : simpl never.
Arguments N.pow : simpl never.

(** Base-128 varint, little-endian groups, at most 10 bytes (u64). *)
Fixpoint varint_go (fuel : nat) (n : N) : bytes :=
  match fuel with
  | O => []
  | S f => if n <? 128 then [n2b n] else n2b (n mod 128 + 128) :: varint_go f (n / 128)
  end.
Definition write_varint (n : N) : bytes := varint_go 10 n.

(** Number of bytes of a varint by the crate's threshold rule. *)
Fixpoint varint_size_go (fuel : nat) (n : N) : N :=
  match fuel with
  | O => 0
  | S f => if n <? 128 then 1 else 1 + varint_size_go f (n / 128)
  end.
Definition varint_size (n : N) : N := varint_size_go 10 n.

(** Reader: at most 10 bytes, the value must fit 64 bits. *)
Fixpoint read_varint_go (fuel : nat) (scale acc : N) (b : bytes) : option (N * bytes) :=
  match fuel, b with
  | S f, x :: r =>
      let acc' := acc + (b2n x mod 128) * scale in
      if b2n x <? 128 then (if acc' <? u64_max then Some (acc', r) else None)
      else read_varint_go f (scale * 128) acc' r
  | _, _ => None
  end.
Definition read_varint (b : bytes) : option (N * bytes) := read_varint_go 10 1 0 b.

(** Wire values. *)
Inductive wval :=
| WVarint (n : N)        (* wire type 0 *)
| WFixed64 (b : bytes)   (* wire type 1, 8 raw bytes *)
| WLen (b : bytes)       (* wire type 2 *)
| WFixed32 (b : bytes).  (* wire type 5, 4 raw bytes *)

Definition wtype (w : wval) : N :=
  match w with WVarint _ => 0 | WFixed64 _ => 1 | WLen _ => 2 | WFixed32 _ => 5 end.
Definition tag (num : N) (w : wval) : N := num * 8 + wtype w.

Definition write_wval (w : wval) : bytes :=
  match w with
  | WVarint n => write_varint n
  | WFixed64 b | WFixed32 b => b
  | WLen b => write_varint (blen b) ++ b
  end.
Definition write_field (f : N * wval) : bytes := write_varint (tag (fst f) (snd f)) ++ write_wval (snd f).
Definition write_raws (fs : list (N * wval)) : bytes := concat (map write_field fs).

(** What a writer may be given: field number 1..2^29-1, values in range. *)
Definition wval_ok (w : wval) : bool :=
  match w with
  | WVarint n => n <? u64_max
  | WFixed64 b => blen b =? 8
  | WLen b => blen b <? u64_max
  | WFixed32 b => blen b =? 4
  end.
Definition num_ok (n : N) : bool := (0 <? n) && (n <? 536870912).
Definition raw_ok (f : N * wval) : bool := num_ok (fst f) && wval_ok (snd f).

Definition read_field (b : bytes) : option ((N * wval) * bytes) :=
  match read_varint b with
  | None => None
  | Some (t, b1) =>
      if negb (num_ok (t / 8)) then None else
      let num := t / 8 in
      match t mod 8 with
      | 0 => match read_varint b1 with Some (n, r) => Some ((num, WVarint n), r) | None => None end
      | 1 => match take_n 8 b1 with Some (x, r) => Some ((num, WFixed64 x), r) | None => None end
      | 2 => match read_varint b1 with
             | Some (l, b2) => match take_n l b2 with Some (x, r) => Some ((num, WLen x), r) | None => None end
             | None => None end
      | 5 => match take_n 4 b1 with Some (x, r) => Some ((num, WFixed32 x), r) | None => None end
      | _ => None
      end
  end.

(** All fields of a message; the fuel is the number of bytes (each field takes at least one). *)
Fixpoint parse_raw_go (fuel : nat) (b : bytes) : option (list (N * wval)) :=
  match b with
  | [] => Some []
  | _ => match fuel with
         | O => None
         | S f => match read_field b with
                  | None => None
                  | Some (x, r) => option_map (cons x) (parse_raw_go f r)
                  end
         end
  end.
Definition parse_raw (b : bytes) : option (list (N * wval)) := parse_raw_go (length b) b.

(** Packed repeated varints. *)
Fixpoint parse_packed_go (fuel : nat) (b : bytes) : option (list N) :=
  match b with
  | [] => Some []
  | _ => match fuel with
         | O => None
         | S f => match read_varint b with
                  | None => None
                  | Some (x, r) => option_map (cons x) (parse_packed_go f r)
                  end
         end
  end.
Definition parse_packed (b : bytes) : option (list N) := parse_packed_go (length b) b.

(** * Facts *)

Lemma read_varint_go_write f n scale acc rest :
  n < 128 ^ N.of_nat (S f) -> acc + n * scale < u64_max ->
  read_varint_go (S f) scale acc (varint_go (S f) n ++ rest) = Some (acc + n * scale, rest).
Proof.
  revert n scale acc. induction f as [|f IH]; intros n scale acc Hn Hb.
  - assert (n < 128) by (cbn in Hn; lia).
    cbn [varint_go read_varint_go].
    destruct (N.ltb_spec n 128); [|lia]. cbn [app].
    rewrite b2n_n2b_small by lia.
    destruct (N.ltb_spec n 128); [|lia].
    rewrite N.mod_small by lia.
    destruct (N.ltb_spec (acc + n * scale) u64_max); [reflexivity|lia].
  - cbn [varint_go]. destruct (N.ltb_spec n 128) as [Hs|Hs].
    + cbn [read_varint_go app]. rewrite b2n_n2b_small by lia.
      destruct (N.ltb_spec n 128); [|lia].
      rewrite N.mod_small by lia.
      destruct (N.ltb_spec (acc + n * scale) u64_max); [reflexivity|lia].
    + assert (Hm : n mod 128 < 128) by (apply N.mod_lt; lia).
      cbn [app]. remember (S f) as f' eqn:Ef.
      cbn [read_varint_go]. rewrite b2n_n2b_small by lia.
      destruct (N.ltb_spec (n mod 128 + 128) 128); [lia|].
      assert (Hdm := N.div_mod n 128 ltac:(lia)).
      assert (Hmm : (n mod 128 + 128) mod 128 = n mod 128).
      { replace (n mod 128 + 128) with (n mod 128 + 1 * 128) by lia.
        rewrite N.mod_add by lia. now rewrite N.mod_mod by lia. }
      rewrite Hmm. subst f'.
      change (if n / 128 <? 128 then [n2b (n / 128)]
              else n2b ((n / 128) mod 128 + 128) :: varint_go f (n / 128 / 128))
        with (varint_go (S f) (n / 128)).
      rewrite IH.
      * f_equal. f_equal. nia.
      * apply N.div_lt_upper_bound; [lia|].
        replace (N.of_nat (S (S f))) with (N.succ (N.of_nat (S f))) in Hn by lia.
        rewrite N.pow_succ_r' in Hn. lia.
      * nia.
Qed.

Lemma read_write_varint n rest : n < u64_max -> read_varint (write_varint n ++ rest) = Some (n, rest).
Proof.
  intros H. unfold read_varint, write_varint.
  rewrite read_varint_go_write.
  - f_equal. f_equal. lia.
  - eapply N.lt_trans; [exact H|reflexivity].
  - lia.
Qed.

Lemma varint_go_length f n : blen (varint_go f n) = varint_size_go f n.
Proof.
  revert n. induction f as [|f IH]; intros n; [reflexivity|].
  cbn [varint_go varint_size_go]. destruct (n <? 128); [reflexivity|].
  rewrite blen_cons, IH. reflexivity.
Qed.
Lemma write_varint_length n : blen (write_varint n) = varint_size n.
Proof. apply varint_go_length. Qed.
Lemma varint_size_pos n : 0 < varint_size n.
Proof. unfold varint_size. cbn [varint_size_go]. destruct (n <? 128); lia. Qed.
Lemma write_varint_nonempty n : write_varint n <> [].
Proof. intros E. pose proof (write_varint_length n). pose proof (varint_size_pos n). rewrite E in *. unfold blen in *. simpl in *. lia. Qed.

Lemma read_varint_go_shrinks f scale acc b n r :
  read_varint_go f scale acc b = Some (n, r) -> (length r < length b)%nat.
Proof.
  revert scale acc b. induction f as [|f IH]; intros scale acc [|x b] H; try discriminate.
  cbn [read_varint_go] in H. destruct (b2n x <? 128).
  - destruct (_ <? u64_max); [|discriminate]. injection H as _ <-. simpl. lia.
  - apply IH in H. simpl. lia.
Qed.
Lemma read_varint_shrinks b n r : read_varint b = Some (n, r) -> (length r < length b)%nat.
Proof. apply read_varint_go_shrinks. Qed.
Lemma read_varint_go_bound f scale acc b n r :
  read_varint_go f scale acc b = Some (n, r) -> n < u64_max.
Proof.
  revert scale acc b. induction f as [|f IH]; intros scale acc [|x b] H; try discriminate.
  cbn [read_varint_go] in H. destruct (b2n x <? 128).
  - destruct (N.ltb_spec (acc + b2n x mod 128 * scale) u64_max); [|discriminate].
    injection H as <- _. assumption.
  - now apply IH in H.
Qed.
Lemma read_varint_bound b n r : read_varint b = Some (n, r) -> n < u64_max.
Proof. apply read_varint_go_bound. Qed.

Lemma read_field_shrinks b f r : read_field b = Some (f, r) -> (length r < length b)%nat.
Proof.
  unfold read_field. destruct (read_varint b) as [[t b1]|] eqn:E1; [|discriminate].
  apply read_varint_shrinks in E1. destruct (negb _); [discriminate|].
  assert (Htk : forall k x y, take_n k b1 = Some (x, y) -> (length y <= length b1)%nat).
  { intros k x y H. apply take_n_some in H. destruct H as [-> _]. rewrite app_length. lia. }
  intros H.
  destruct (t mod 8) as [|[p|p|]] eqn:Em.
  - destruct (read_varint b1) as [[n r']|] eqn:E2; [|discriminate].
    apply read_varint_shrinks in E2. injection H as _ <-. lia.
  - destruct p as [p|[p|p|]|]; try discriminate.
    destruct (take_n 4 b1) as [[x y]|] eqn:E2; [|discriminate].
    apply Htk in E2. injection H as _ <-. lia.
  - destruct p as [p|p|]; try discriminate.
    destruct (read_varint b1) as [[l b2]|] eqn:E2; [|discriminate].
    apply read_varint_shrinks in E2.
    destruct (take_n l b2) as [[x y]|] eqn:E3; [|discriminate].
    apply take_n_some in E3. destruct E3 as [-> _]. rewrite app_length in E2.
    injection H as _ <-. lia.
  - destruct (take_n 8 b1) as [[x y]|] eqn:E2; [|discriminate].
    apply Htk in E2. injection H as _ <-. lia.
Qed.

Lemma tag_div n w : tag n w / 8 = n.
Proof.
  unfold tag. rewrite N.add_comm, N.div_add by lia.
  rewrite N.div_small; [lia|]. destruct w; simpl; lia.
Qed.
Lemma tag_mod n w : tag n w mod 8 = wtype w.
Proof.
  unfold tag. rewrite N.add_comm, N.mod_add by lia.
  apply N.mod_small. destruct w; simpl; lia.
Qed.
Lemma tag_bound n w : num_ok n = true -> tag n w < u64_max.
Proof. unfold num_ok, tag, u64_max. intros H. destruct w; simpl wtype; lia. Qed.

Lemma read_write_field f rest : raw_ok f = true ->
  read_field (write_field f ++ rest) = Some (f, rest).
Proof.
  destruct f as [n w]. unfold raw_ok, write_field. cbn [fst snd]. intros H.
  apply andb_true_iff in H. destruct H as [Hn Hw].
  unfold read_field. rewrite <- app_assoc.
  rewrite read_write_varint by now apply tag_bound.
  rewrite tag_div, Hn. cbn [negb]. rewrite tag_mod.
  destruct w as [k|b|b|b]; cbn [wtype write_wval wval_ok] in *.
  - rewrite read_write_varint by lia. reflexivity.
  - rewrite (take_n_app b rest) by lia. reflexivity.
  - rewrite <- app_assoc. rewrite read_write_varint by lia.
    rewrite (take_n_app b rest) by reflexivity. reflexivity.
  - rewrite (take_n_app b rest) by lia. reflexivity.
Qed.

Lemma parse_raw_go_fuel f1 f2 b : (length b <= f1)%nat -> (length b <= f2)%nat ->
  parse_raw_go f1 b = parse_raw_go f2 b.
Proof.
  revert f2 b. induction f1 as [|f1 IH]; intros f2 b H1 H2.
  - destruct b; [|simpl in H1; lia]. destruct f2; reflexivity.
  - destruct b as [|x b]; [destruct f2; reflexivity|].
    destruct f2 as [|f2]; [simpl in H2; lia|].
    cbn [parse_raw_go]. destruct (read_field (x :: b)) as [[y r]|] eqn:E; [|reflexivity].
    apply read_field_shrinks in E. simpl in *. f_equal. apply IH; lia.
Qed.

Lemma parse_raw_step b x r : read_field b = Some (x, r) ->
  parse_raw b = option_map (cons x) (parse_raw r).
Proof.
  intros E. pose proof (read_field_shrinks _ _ _ E) as Hs.
  unfold parse_raw. destruct b as [|y b]; [simpl in Hs; lia|].
  cbn [parse_raw_go length]. rewrite E. f_equal.
  apply parse_raw_go_fuel; simpl in *; lia.
Qed.

Lemma write_field_nonempty f : write_field f <> [].
Proof.
  unfold write_field. intros E. apply app_eq_nil in E. destruct E as [E _].
  now apply write_varint_nonempty in E.
Qed.

Lemma parse_raw_app_write fs rest : forallb raw_ok fs = true ->
  parse_raw (write_raws fs ++ rest) = option_map (app fs) (parse_raw rest).
Proof.
  induction fs as [|f fs IH]; cbn [forallb]; intros H.
  - simpl. destruct (parse_raw rest); reflexivity.
  - apply andb_true_iff in H. destruct H as [Hf Hfs].
    unfold write_raws in *. cbn [map concat]. rewrite <- app_assoc.
    rewrite (parse_raw_step _ f (concat (map write_field fs) ++ rest)) by now apply read_write_field.
    rewrite IH by assumption. destruct (parse_raw rest); reflexivity.
Qed.

Lemma parse_write_raws fs : forallb raw_ok fs = true -> parse_raw (write_raws fs) = Some fs.
Proof.
  intros H. rewrite <- (app_nil_r (write_raws fs)), parse_raw_app_write by assumption.
  simpl. now rewrite app_nil_r.
Qed.

(** Size of the raw encoding. *)
Definition wval_size (w : wval) : N :=
  match w with
  | WVarint n => varint_size n
  | WFixed64 b | WFixed32 b => blen b
  | WLen b => varint_size (blen b) + blen b
  end.
Lemma wval_size_ok w : wval_size w = blen (write_wval w).
Proof. destruct w; simpl; rewrite ?blen_app, ?write_varint_length; reflexivity. Qed.
