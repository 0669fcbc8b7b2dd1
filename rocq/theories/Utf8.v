(** UTF-8 validity, as checked by Rust for [String] and by the protobuf crate
    when it reads a [string] field (std::str::from_utf8: no overlong forms,
    no surrogates, at most U+10FFFF). *)
From Verif Require Import Bytes.
Open Scope N_scope.

Definition in_rng (lo hi : N) (b : byte) : bool := (lo <=? b2n b) && (b2n b <=? hi).
Definition cont (b : byte) : bool := in_rng 128 191 b.

Fixpoint utf8 (s : bytes) : bool :=
  match s with
  | [] => true
  | a :: r =>
    if b2n a <? 128 then utf8 r
    else if in_rng 194 223 a then
      match r with b1 :: r1 => cont b1 && utf8 r1 | _ => false end
    else if in_rng 224 239 a then
      match r with
      | b1 :: (b2 :: r2) =>
          (if b2n a =? 224 then in_rng 160 191 b1
           else if b2n a =? 237 then in_rng 128 159 b1 else cont b1)
          && cont b2 && utf8 r2
      | _ => false
      end
    else if in_rng 240 244 a then
      match r with
      | b1 :: (b2 :: (b3 :: r3)) =>
          (if b2n a =? 240 then in_rng 144 191 b1
           else if b2n a =? 244 then in_rng 128 143 b1 else cont b1)
          && cont b2 && cont b3 && utf8 r3
      | _ => false
      end
    else false
  end.

Lemma utf8_app a b : utf8 a = true -> utf8 (a ++ b) = utf8 b.
Proof.
  remember (length a) as n eqn:Hn.
  assert (Hle : (length a <= n)%nat) by lia. clear Hn.
  revert a Hle. induction n as [|n IH]; intros a Hle H.
  - destruct a; [reflexivity|simpl in Hle; lia].
  - destruct a as [|x r]; [reflexivity|].
    simpl in Hle. cbn [utf8 app] in *.
    destruct (b2n x <? 128); [apply IH; [lia|exact H]|].
    destruct (in_rng 194 223 x).
    { destruct r as [|b1 r1]; [discriminate|]. cbn [app]. simpl in Hle.
      apply andb_true_iff in H. destruct H as [-> H]. cbn [andb]. apply IH; [lia|exact H]. }
    destruct (in_rng 224 239 x).
    { destruct r as [|b1 [|b2 r2]]; try discriminate. cbn [app]. simpl in Hle.
      apply andb_true_iff in H. destruct H as [Hh H]. rewrite Hh. cbn [andb]. apply IH; [lia|exact H]. }
    destruct (in_rng 240 244 x).
    { destruct r as [|b1 [|b2 [|b3 r3]]]; try discriminate. cbn [app]. simpl in Hle.
      apply andb_true_iff in H. destruct H as [Hh H]. rewrite Hh. cbn [andb]. apply IH; [lia|exact H]. }
    discriminate.
Qed.

Definition ascii_b (b : byte) : bool := b2n b <? 128.
Lemma utf8_ascii a : forallb ascii_b a = true -> utf8 a = true.
Proof.
  induction a as [|x a IH]; [reflexivity|]. cbn [forallb utf8]. intros H.
  apply andb_true_iff in H. destruct H as [Hx Ha]. unfold ascii_b in Hx. rewrite Hx. now apply IH.
Qed.
