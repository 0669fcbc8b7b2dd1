(** The UTF-8 check accepts exactly the encodings of sequences of code points. *)
From Verif Require Import Bytes Utf8 Wire Proto SpecGrammar.
Open Scope N_scope.

Lemma in_rng_spec lo hi x : in_rng lo hi x = true <-> lo <= b2n x <= hi.
Proof. unfold in_rng. rewrite andb_true_iff, !N.leb_le. reflexivity. Qed.
Lemma cont_spec x : cont x = true <-> 128 <= b2n x <= 191.
Proof. apply in_rng_spec. Qed.
Lemma div64 a b : b < 64 -> (a * 64 + b) / 64 = a.
Proof. intros H. rewrite N.add_comm, N.div_add by lia. rewrite N.div_small by lia. lia. Qed.
Lemma mod64 a b : b < 64 -> (a * 64 + b) mod 64 = b.
Proof. intros H. rewrite N.add_comm, N.mod_add by lia. now apply N.mod_small. Qed.
Lemma div4096 c : c / 4096 = c / 64 / 64.
Proof. rewrite N.div_div by lia. reflexivity. Qed.
Lemma div262144 c : c / 262144 = c / 64 / 64 / 64.
Proof. rewrite !N.div_div by lia. reflexivity. Qed.
Lemma text_one c r b : code_point c -> is_text r -> map b2n b = utf8_of c -> is_text (b ++ r).
Proof. intros C (cs & F & E) Eb. exists (c :: cs). split; [now constructor|]. rewrite map_app. cbn [map concat]. now rewrite Eb, E. Qed.
Ltac dec_ltb := repeat match goal with |- context [?x <? ?y] => destruct (N.ltb_spec x y); try lia end.
Lemma utf8_text b : utf8 b = true -> is_text b.
Proof.
  remember (length b) as k eqn:Hk. revert b Hk. induction k as [k IH] using lt_wf_ind. intros b Hk H.
  destruct b as [|a r]; [exists []; split; [constructor|reflexivity]|]. cbn [utf8] in H. cbn [length] in Hk.
  destruct (N.ltb_spec (b2n a) 128) as [Ha|Ha].
  { change (a :: r) with ([a] ++ r). apply (text_one (b2n a)); [left; lia|apply (IH (length r)); auto; lia|]. unfold utf8_of. dec_ltb. reflexivity. }
  destruct (in_rng 194 223 a) eqn:R2.
  { apply in_rng_spec in R2. destruct r as [|b1 r1]; [discriminate|]. apply andb_true_iff in H as [H1 H]. apply cont_spec in H1.
    change (a :: b1 :: r1) with ([a; b1] ++ r1). cbn [length] in Hk.
    apply (text_one ((b2n a - 192) * 64 + (b2n b1 - 128))); [left; nia|apply (IH (length r1)); auto; lia|]. unfold utf8_of.
    rewrite div64, mod64 by lia. dec_ltb. cbn [map]. f_equal; [lia|f_equal; lia]. }
  destruct (in_rng 224 239 a) eqn:R3.
  { apply in_rng_spec in R3. destruct r as [|b1 [|b2 r2]]; try discriminate. apply andb_true_iff in H as [H1 H]. apply andb_true_iff in H1 as [H1 H2]. apply cont_spec in H2.
    change (a :: b1 :: b2 :: r2) with ([a; b1; b2] ++ r2). cbn [length] in Hk.
    assert (B1 : 128 <= b2n b1 <= 191 /\ (b2n a = 224 -> 160 <= b2n b1) /\ (b2n a = 237 -> b2n b1 <= 159)).
    { destruct (N.eqb_spec (b2n a) 224); [apply in_rng_spec in H1; lia|]. destruct (N.eqb_spec (b2n a) 237); [apply in_rng_spec in H1; lia|]. apply cont_spec in H1. lia. }
    clear H1. destruct B1 as (B1 & B2 & B3).
    apply (text_one (((b2n a - 224) * 64 + (b2n b1 - 128)) * 64 + (b2n b2 - 128))).
    - destruct (N.lt_trichotomy (b2n a) 237) as [X|[X|X]]; [left; nia| |right; nia]. specialize (B3 X). rewrite X. left. lia.
    - apply (IH (length r2)); auto; lia.
    - unfold utf8_of. rewrite div4096, !div64, !mod64 by lia.
      destruct (N.eq_dec (b2n a) 224) as [X|X]; [specialize (B2 X)|]; dec_ltb; cbn [map]; repeat (f_equal; try lia). }
  destruct (in_rng 240 244 a) eqn:R4; [|discriminate].
  apply in_rng_spec in R4. destruct r as [|b1 [|b2 [|b3 r3]]]; try discriminate. apply andb_true_iff in H as [H1 H]. apply andb_true_iff in H1 as [H1 H3]. apply andb_true_iff in H1 as [H1 H2].
  apply cont_spec in H2. apply cont_spec in H3. change (a :: b1 :: b2 :: b3 :: r3) with ([a; b1; b2; b3] ++ r3). cbn [length] in Hk.
  assert (B1 : 128 <= b2n b1 <= 191 /\ (b2n a = 240 -> 144 <= b2n b1) /\ (b2n a = 244 -> b2n b1 <= 143)).
  { destruct (N.eqb_spec (b2n a) 240); [apply in_rng_spec in H1; lia|]. destruct (N.eqb_spec (b2n a) 244); [apply in_rng_spec in H1; lia|]. apply cont_spec in H1. lia. }
  clear H1. destruct B1 as (B1 & B2 & B3).
  assert (Lo : 65536 <= (((b2n a - 240) * 64 + (b2n b1 - 128)) * 64 + (b2n b2 - 128)) * 64 + (b2n b3 - 128)).
  { destruct (N.eq_dec (b2n a) 240) as [X|X]; [specialize (B2 X)|]; lia. }
  apply (text_one ((((b2n a - 240) * 64 + (b2n b1 - 128)) * 64 + (b2n b2 - 128)) * 64 + (b2n b3 - 128))).
  - right. split; [lia|]. destruct (N.eq_dec (b2n a) 244) as [X|X]; [specialize (B3 X)|]; lia.
  - apply (IH (length r3)); auto; lia.
  - unfold utf8_of. rewrite div262144, div4096, !div64, !mod64 by lia. dec_ltb. cbn [map]. repeat (f_equal; try lia).
Qed.
Lemma text_utf8 b : is_text b -> utf8 b = true.
Proof.
  intros (cs & F & E). revert b E. induction F as [|c cs Hc F IH]; intros b E.
  - destruct b; [reflexivity|discriminate].
  - cbn [map concat] in E. unfold utf8_of in E.
    pose proof (N.mod_lt c 64 ltac:(lia)) as M1. pose proof (N.mod_lt (c / 64) 64 ltac:(lia)) as M2. pose proof (N.mod_lt (c / 64 / 64) 64 ltac:(lia)) as M3.
    pose proof (N.div_mod c 64 ltac:(lia)) as D1. pose proof (N.div_mod (c / 64) 64 ltac:(lia)) as D2. pose proof (N.div_mod (c / 64 / 64) 64 ltac:(lia)) as D3.
    rewrite div262144, div4096 in E. set (q1 := c / 64) in *. set (q2 := q1 / 64) in *. set (q3 := q2 / 64) in *.
    set (m1 := c mod 64) in *. set (m2 := q1 mod 64) in *. set (m3 := q2 mod 64) in *. clearbody q1 q2 q3 m1 m2 m3.
    assert (R : forall lo hi x, lo <= b2n x <= hi -> in_rng lo hi x = true) by (intros; now apply in_rng_spec).
    assert (Rn : forall lo hi x, b2n x < lo \/ hi < b2n x -> in_rng lo hi x = false).
    { intros lo hi x Hx. destruct (in_rng lo hi x) eqn:Y; auto. apply in_rng_spec in Y. lia. }
    unfold code_point in Hc.
    destruct (N.ltb_spec c 128) as [L1|L1]; [|destruct (N.ltb_spec c 2048) as [L2|L2]; [|destruct (N.ltb_spec c 65536) as [L3|L3]]]; cbn [app] in E.
    + destruct b as [|a b]; [discriminate|]. cbn [map] in E. injection E as Ea E. cbn [utf8]. rewrite Ea. destruct (N.ltb_spec c 128); [|lia]. auto.
    + destruct b as [|a [|b1 b]]; try discriminate. cbn [map] in E. injection E as Ea E1 E. cbn [utf8].
      destruct (N.ltb_spec (b2n a) 128); [lia|]. rewrite R by lia. unfold cont. rewrite R by lia. cbn. auto.
    + destruct b as [|a [|b1 [|b2 b]]]; try discriminate. cbn [map] in E. injection E as Ea E1 E2 E. cbn [utf8].
      destruct (N.ltb_spec (b2n a) 128); [lia|]. rewrite Rn by lia. rewrite R by lia. unfold cont. rewrite (R 128 191 b2) by lia.
      destruct (N.eqb_spec (b2n a) 224); [rewrite R by lia; cbn; auto|]. destruct (N.eqb_spec (b2n a) 237); [rewrite R by lia; cbn; auto|]. rewrite R by lia. cbn. auto.
    + destruct b as [|a [|b1 [|b2 [|b3 b]]]]; try discriminate. cbn [map] in E. injection E as Ea E1 E2 E3 E. cbn [utf8].
      destruct (N.ltb_spec (b2n a) 128); [lia|]. rewrite (Rn 194) by lia. rewrite (Rn 224) by lia. rewrite (R 240) by lia. unfold cont. rewrite (R 128 191 b2), (R 128 191 b3) by lia.
      destruct (N.eqb_spec (b2n a) 240); [rewrite R by lia; cbn; auto|]. destruct (N.eqb_spec (b2n a) 244); [rewrite R by lia; cbn; auto|]. rewrite R by lia. cbn. auto.
Qed.
Theorem utf8_is b : utf8 b = true <-> is_text b.
Proof. split; [apply utf8_text|apply text_utf8]. Qed.
