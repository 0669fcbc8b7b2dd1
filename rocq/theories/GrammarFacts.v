(** The parser accepts exactly the grammar of [SpecGrammar]. *)
From Verif Require Import Bytes Wire Utf8 Proto ProtoFacts SpecGrammar GrammarUtf8.
Open Scope N_scope.

Lemma read_septets f : forall scale acc b v r,
  read_varint_go f scale acc b = Some (v, r) <-> exists p n, b = p ++ r /\ septets p n /\ (length p <= f)%nat /\ v = acc + n * scale /\ v < u64_max.
Proof.
  induction f as [|f IH]; intros scale acc b v r.
  - split; [destruct b; discriminate|]. intros (p & n & _ & S & L & _). inversion S; subst; cbn in L; lia.
  - destruct b as [|x b]; cbn [read_varint_go].
    + split; [discriminate|]. intros (p & n & E & S & _). inversion S; subst; discriminate.
    + destruct (N.ltb_spec (b2n x) 128) as [Hx|Hx].
      * rewrite N.mod_small by exact Hx. split.
        { destruct (N.ltb_spec (acc + b2n x * scale) u64_max) as [Hb|]; [|discriminate]. intros [= <- <-]. exists [x], (b2n x).
          split; [reflexivity|]. split; [now constructor|]. split; [cbn; lia|auto]. }
        { intros (p & n & E & S & L & -> & B). inversion S as [y Hy E1 E2|y q n0 Hy Hq E1 E2]; subst.
          - injection E as -> ->. destruct (N.ltb_spec (acc + b2n y * scale) u64_max); [reflexivity|lia].
          - injection E as -> ->. lia. }
      * assert (Hm : b2n x mod 128 = b2n x - 128).
        { pose proof (b2n_lt x). replace (b2n x) with (b2n x - 128 + 1 * 128) at 1 by lia. rewrite N.mod_add by lia. apply N.mod_small. lia. }
        rewrite Hm, IH. split.
        { intros (p & n & -> & S & L & -> & B). exists (x :: p), (b2n x - 128 + 128 * n). split; [reflexivity|]. split; [now constructor|].
          split; [cbn; lia|]. split; [nia|exact B]. }
        { intros (p & n & E & S & L & -> & B). inversion S as [y Hy E1 E2|y q n0 Hy Hq E1 E2]; subst.
          - injection E as -> ->. lia.
          - injection E as -> ->. exists q, n0. split; [reflexivity|]. split; [exact Hq|]. split; [cbn in L; lia|]. split; [nia|]. nia. }
Qed.
Lemma read_is b v r : read_varint b = Some (v, r) <-> exists p, b = p ++ r /\ is_varint p v.
Proof.
  unfold read_varint. rewrite read_septets. split.
  - intros (p & n & -> & S & L & -> & B). exists p. split; [reflexivity|]. rewrite N.mul_1_r, N.add_0_l in *. split; [exact S|]. split; [exact L|exact B].
  - intros (p & -> & S & L & B). exists p, v. split; [reflexivity|]. split; [exact S|]. split; [exact L|]. split; [lia|exact B].
Qed.
Lemma take_is k b x y : take_n k b = Some (x, y) <-> b = x ++ y /\ blen x = k.
Proof. split; [apply take_n_some|]. intros [-> <-]. now apply take_n_app. Qed.
Lemma field_is b f r : read_field b = Some (f, r) <-> exists p, b = p ++ r /\ is_field p f.
Proof.
  unfold read_field. destruct f as [num w]. split.
  - destruct (read_varint b) as [[t b1]|] eqn:E1; [|discriminate]. apply read_is in E1 as (p & -> & Hp).
    unfold num_ok. destruct (N.ltb_spec 0 (t / 8)) as [H0|]; cbn [andb negb]; [|discriminate]. destruct (N.ltb_spec (t / 8) 536870912) as [H1|]; cbn [negb]; [|discriminate].
    assert (Hr : 1 <= t / 8 < 2 ^ 29) by (change (2 ^ 29) with 536870912; lia).
    assert (Ht : t = t / 8 * 8 + t mod 8) by (pose proof (N.div_mod t 8); lia). set (k := t / 8) in *. 
    destruct (t mod 8) as [|[q|q|]] eqn:Em.
    + destruct (read_varint b1) as [[n r']|] eqn:E2; [|discriminate]. apply read_is in E2 as (p2 & -> & Hp2). intros [= <- <- <-].
      exists (p ++ p2). split; [apply app_assoc|]. rewrite Ht, N.add_0_r in Hp. now constructor.
    + destruct q as [q|[q|q|]|]; try discriminate. destruct (take_n 4 b1) as [[x y]|] eqn:E2; [|discriminate]. apply take_is in E2 as [-> L]. intros [= <- <- <-].
      exists (p ++ x). split; [apply app_assoc|]. rewrite Ht in Hp. constructor; auto. unfold blen in L. lia.
    + destruct q as [q|q|]; try discriminate. destruct (read_varint b1) as [[n r']|] eqn:E2; [|discriminate]. apply read_is in E2 as (p2 & -> & Hp2).
      destruct (take_n n r') as [[x y]|] eqn:E3; [|discriminate]. apply take_is in E3 as [-> L]. intros [= <- <- <-].
      exists (p ++ p2 ++ x). split; [rewrite <- !app_assoc; reflexivity|]. rewrite Ht in Hp. unfold blen in L. constructor; auto. now rewrite L.
    + destruct (take_n 8 b1) as [[x y]|] eqn:E2; [|discriminate]. apply take_is in E2 as [-> L]. intros [= <- <- <-].
      exists (p ++ x). split; [apply app_assoc|]. rewrite Ht in Hp. constructor; auto. unfold blen in L. lia.
  - assert (Tg : forall num w, 1 <= num < 2 ^ 29 -> num_ok ((num * 8 + w) / 8) = true \/ 8 <= w).
    { intros n0 w0 Hn. destruct (N.lt_ge_cases w0 8); [left|right; auto]. rewrite N.add_comm, N.div_add by lia. rewrite N.div_small by lia.
      unfold num_ok. change (2 ^ 29) with 536870912 in Hn. destruct (N.ltb_spec 0 (0 + n0)); [|lia]. destruct (N.ltb_spec (0 + n0) 536870912); [reflexivity|lia]. }
    assert (Md : forall num w, w < 8 -> (num * 8 + w) mod 8 = w /\ (num * 8 + w) / 8 = num).
    { intros n0 w0 Hw. rewrite N.add_comm. split; [rewrite N.mod_add by lia; now apply N.mod_small|rewrite N.div_add by lia; rewrite N.div_small by lia; lia]. }
    intros (p & -> & F). inversion F as [t b0 n0 n Hn Ht Hb E1 E2|t b0 n0 Hn Ht Hb E1 E2|t l b0 n0 Hn Ht Hb E1 E2|t b0 n0 Hn Ht Hb E1 E2]; subst; rewrite <- !app_assoc.
    + rewrite (proj2 (read_is _ _ _) (ex_intro _ t (conj eq_refl Ht))). destruct (Tg num 0 Hn) as [G|G]; [|lia]. destruct (Md num 0) as [M1 M2]; [lia|]. rewrite N.add_0_r in *.
      rewrite G, M1, M2. cbn [negb]. rewrite (proj2 (read_is _ _ _) (ex_intro _ b0 (conj eq_refl Hb))). reflexivity.
    + rewrite (proj2 (read_is _ _ _) (ex_intro _ t (conj eq_refl Ht))). destruct (Tg num 1 Hn) as [G|G]; [|lia]. destruct (Md num 1) as [M1 M2]; [lia|].
      rewrite G, M1, M2. cbn [negb]. rewrite take_n_app by (unfold blen; lia). reflexivity.
    + rewrite (proj2 (read_is _ _ _) (ex_intro _ t (conj eq_refl Ht))). destruct (Tg num 2 Hn) as [G|G]; [|lia]. destruct (Md num 2) as [M1 M2]; [lia|].
      rewrite G, M1, M2. cbn [negb]. rewrite (proj2 (read_is _ _ _) (ex_intro _ l (conj eq_refl Hb))). rewrite take_n_app by reflexivity. reflexivity.
    + rewrite (proj2 (read_is _ _ _) (ex_intro _ t (conj eq_refl Ht))). destruct (Tg num 5 Hn) as [G|G]; [|lia]. destruct (Md num 5) as [M1 M2]; [lia|].
      rewrite G, M1, M2. cbn [negb]. rewrite take_n_app by (unfold blen; lia). reflexivity.
Qed.
Lemma fields_are b rs : parse_raw b = Some rs <-> are_fields b rs.
Proof.
  split.
  - remember (length b) as k eqn:Hk. revert b Hk rs. induction k as [k IH] using lt_wf_ind. intros b Hk rs H.
    destruct b as [|x b]; [injection H as <-; constructor|]. destruct (read_field (x :: b)) as [[f r]|] eqn:E.
    + rewrite (parse_raw_step _ _ _ E) in H. pose proof (read_field_shrinks _ _ _ E) as Sh. apply field_is in E as (p & Ep & Hp). rewrite Ep.
      destruct (parse_raw r) as [rs'|] eqn:Er; [|discriminate]. injection H as <-. constructor; [exact Hp|]. apply (IH (length r)); auto. lia.
    + unfold parse_raw in H. cbn [parse_raw_go length] in H. rewrite E in H. discriminate.
  - induction 1 as [|b f r fs Hf Hfs IH]; [reflexivity|]. rewrite (parse_raw_step (b ++ r) f r), IH; [reflexivity|]. apply field_is. eauto.
Qed.
Lemma packed_fuel f1 : forall f2 b, (length b <= f1)%nat -> (length b <= f2)%nat -> parse_packed_go f1 b = parse_packed_go f2 b.
Proof.
  induction f1 as [|f1 IH]; intros f2 b H1 H2.
  - destruct b; [|simpl in H1; lia]. destruct f2; reflexivity.
  - destruct b as [|x b]; [destruct f2; reflexivity|]. destruct f2 as [|f2]; [simpl in H2; lia|].
    cbn [parse_packed_go]. destruct (read_varint (x :: b)) as [[y r]|] eqn:E; [|reflexivity].
    apply read_varint_shrinks in E. simpl in *. f_equal. apply IH; lia.
Qed.
Lemma packed_step b x r : read_varint b = Some (x, r) -> parse_packed b = option_map (cons x) (parse_packed r).
Proof.
  intros E. pose proof (read_varint_shrinks _ _ _ E) as Hs. unfold parse_packed. destruct b as [|y b]; [simpl in Hs; lia|].
  cbn [parse_packed_go length]. rewrite E. f_equal. apply packed_fuel; simpl in *; lia.
Qed.
Lemma packed_are b ns : parse_packed b = Some ns <-> are_varints b ns.
Proof.
  split.
  - remember (length b) as k eqn:Hk. revert b Hk ns. induction k as [k IH] using lt_wf_ind. intros b Hk rs H.
    destruct b as [|x b]; [injection H as <-; constructor|]. destruct (read_varint (x :: b)) as [[f r]|] eqn:E.
    + rewrite (packed_step _ _ _ E) in H. pose proof (read_varint_shrinks _ _ _ E) as Sh. apply read_is in E as (p & Ep & Hp). rewrite Ep.
      destruct (parse_packed r) as [rs'|] eqn:Er; [|discriminate]. injection H as <-. constructor; [exact Hp|]. apply (IH (length r)); auto. lia.
    + unfold parse_packed in H. cbn [parse_packed_go length] in H. rewrite E in H. discriminate.
  - induction 1 as [|b f r fs Hf Hfs IH]; [reflexivity|]. rewrite (packed_step (b ++ r) f r), IH; [reflexivity|]. apply read_is. eauto.
Qed.
(** * Values *)
Lemma int_value_of t n z : n < u64_max -> (int_of t n = Some z <-> int_value t n z).
Proof.
  unfold u64_max. intros Hn.
  assert (S1 : (signed64 n mod 2 ^ 64 = Z.of_N n)%Z).
  { unfold signed64. change (2 ^ 64)%Z with 18446744073709551616%Z. destruct (N.ltb_spec n 9223372036854775808).
    - apply Z.mod_small. lia.
    - replace (Z.of_N n - 18446744073709551616)%Z with (Z.of_N n + (-1) * 18446744073709551616)%Z by lia. rewrite Z.mod_add by lia. apply Z.mod_small. lia. }
  assert (S2 : (- 2 ^ 63 <= signed64 n < 2 ^ 63)%Z).
  { unfold signed64. change (2 ^ 63)%Z with 9223372036854775808%Z. destruct (N.ltb_spec n 9223372036854775808); lia. }
  assert (S3 : forall z, (- 2 ^ 63 <= z < 2 ^ 63)%Z -> (z mod 2 ^ 64 = Z.of_N n)%Z -> z = signed64 n).
  { intros z0 B M. unfold signed64. change (2 ^ 64)%Z with 18446744073709551616%Z in M. change (2 ^ 63)%Z with 9223372036854775808%Z in B.
    pose proof (Z.div_mod z0 18446744073709551616 ltac:(lia)) as D. pose proof (Z.mod_pos_bound z0 18446744073709551616 ltac:(lia)). rewrite M in *.
    destruct (N.ltb_spec n 9223372036854775808).
    - assert (z0 / 18446744073709551616 = 0)%Z by nia. lia.
    - assert (z0 / 18446744073709551616 = -1)%Z by nia. lia. }
  assert (I32 : i32_ok (signed64 n) = true <-> (- 2 ^ 31 <= signed64 n < 2 ^ 31)%Z).
  { unfold i32_ok. rewrite andb_true_iff, Z.leb_le, Z.ltb_lt. reflexivity. }
  destruct t; cbn [int_of].
  - split; [intros [= <-]; constructor|]. inversion 1; subst; reflexivity.
  - unfold u32_max. destruct (N.ltb_spec n 4294967296) as [L|L].
    + split; [intros [= <-]; now constructor|]. inversion 1; subst; reflexivity.
    + split; [discriminate|]. inversion 1; subst. change (2 ^ 32) with 4294967296 in *. lia.
  - destruct (i32_ok (signed64 n)) eqn:B.
    + split; [intros [= <-]; constructor; [now apply I32|exact S1]|]. inversion 1; subst. f_equal. symmetry. apply S3; auto. lia.
    + split; [discriminate|]. inversion 1; subst. exfalso. assert (z = signed64 n) by (apply S3; auto; lia). subst z. enough (false = true) by discriminate. now apply I32.
  - split; [intros [= <-]; now constructor|]. inversion 1; subst. f_equal. symmetry. now apply S3.
  - destruct (N.eqb_spec n 0) as [->|Hz].
    + split; [intros [= <-]; constructor|]. inversion 1; subst; [reflexivity|lia].
    + split; [intros [= <-]; constructor; lia|]. inversion 1; subst; [lia|reflexivity].
  - split; [discriminate|inversion 1].
  - split; [discriminate|inversion 1].
  - split; [discriminate|inversion 1].
  - destruct (i32_ok (signed64 n)) eqn:B.
    + split; [intros [= <-]; constructor; [now apply I32|exact S1]|]. inversion 1; subst. f_equal. symmetry. apply S3; auto. lia.
    + split; [discriminate|]. inversion 1; subst. exfalso. assert (z = signed64 n) by (apply S3; auto; lia). subst z. enough (false = true) by discriminate. now apply I32.
  - split; [discriminate|inversion 1].
Qed.
Lemma integral_is t : integral t <-> is_int t = true.
Proof.
  split.
  - intros (n & z & H). destruct H; reflexivity.
  - destruct t; try discriminate; intros _; exists 0, 0%Z; constructor; try reflexivity; lia.
Qed.
Lemma nums_nodup m : NoDup (map f_num (fields m)).
Proof.
  destruct m; cbn; repeat (constructor; [cbn; intros X; repeat (destruct X as [X|X]; [discriminate X|]); exact X|]); constructor.
Qed.
Lemma find_is m n f : find_field m n = Some f <-> In f (fields m) /\ f_num f = n.
Proof.
  unfold find_field. split.
  - intros H. apply find_some in H as [H1 H2]. apply N.eqb_eq in H2. auto.
  - intros [H <-]. pose proof (nums_nodup m) as D. induction (fields m) as [|g l IH]; [destruct H|]. cbn in *. inversion D as [|? ? D1 D2]; subst.
    destruct (N.eqb_spec (f_num g) (f_num f)) as [X|X].
    + destruct H as [->|H]; [reflexivity|]. exfalso. apply D1. rewrite X. now apply in_map.
    + destruct H as [->|H]; [congruence|]. auto.
Qed.
Lemma find_not m n : find_field m n = None <-> forall f, In f (fields m) -> f_num f <> n.
Proof.
  split.
  - intros H f Hf X. assert (Y : find_field m n = Some f) by (apply find_is; auto). congruence.
  - intros H. destruct (find_field m n) as [f|] eqn:X; auto. apply find_is in X as [X1 X2]. exfalso. exact (H f X1 X2).
Qed.
Lemma ints_is t n ks x : Forall (fun k => k < u64_max) ks ->
  (ints_of t n ks = Some x <-> exists zs, Forall2 (int_value t) ks zs /\ x = map (fun z => (n, PInt z)) zs).
Proof.
  intros F. revert x. induction F as [|k ks Hk F IH]; intros x; cbn [ints_of].
  - split; [intros [= <-]; exists []; auto|]. intros (zs & Z & ->). inversion Z. reflexivity.
  - destruct (int_of t k) as [z|] eqn:I.
    + apply int_value_of in I; [|exact Hk]. destruct (ints_of t n ks) as [y|]; cbn [option_map].
      * split.
        { intros [= <-]. destruct (proj1 (IH y) eq_refl) as (zs & Z & ->). exists (z :: zs). split; [now constructor|reflexivity]. }
        { intros (zs & Z & ->). inversion Z as [|? z' ? zs' V Z' E1 E2]; subst. assert (int_of t k = Some z') by now apply int_value_of. apply int_value_of in I; [|exact Hk].
          assert (Some z = Some z') as [= <-] by congruence. assert (Y : Some y = Some (map (fun z => (n, PInt z)) zs')) by (apply IH; eauto). injection Y as ->. reflexivity. }
      * split; [discriminate|]. intros (zs & Z & ->). inversion Z as [|? z' ? zs' V Z' E1 E2]; subst. assert (Y : None = Some (map (fun z => (n, PInt z)) zs')) by (apply IH; eauto). discriminate.
    + split; [discriminate|]. intros (zs & Z & ->). inversion Z as [|? z' ? zs' V Z' E1 E2]; subst. apply int_value_of in V; [congruence|exact Hk].
Qed.
(** * Messages *)
Lemma leaf_is d m f w x : In f (fields m) -> (forall sub b, f_ty f = TMsg sub -> w <> WLen b) -> raw_ok (f_num f, w) = true ->
  (interp_leaf f (f_num f) w = Some x <-> give d m (f_num f, w) x).
Proof.
  intros Hf Hs Ok. apply andb_true_iff in Ok as [_ Ok]. cbn [snd] in Ok.
  assert (Un : forall g, In g (fields m) -> f_num g = f_num f -> g = f).
  { intros g G E. assert (find_field m (f_num f) = Some g) by now apply find_is. assert (find_field m (f_num f) = Some f) by now apply find_is. congruence. }
  assert (Oth : ~ takes_value f w -> (Some [(f_num f, PUnk w)] = Some x <-> give d m (f_num f, w) x)).
  { intros T. split; [intros [= <-]; now constructor|]. intros G. inversion G as [? ? ? ? No E1 E2|? ? g ? Hg Ng E1 E2|? ? g ? ? Hg V E1 E2|? ? g ? ? ? Hg C I A V E1 E2|? ? g ? Hg Ty Tx E1 E2|? ? g ? Hg Ty E1 E2|? ? g sub ? ? Hg Ty En E1 E2]; subst.
    - exfalso. exact (No f Hf eq_refl).
    - reflexivity.
    - apply Un in Hg; auto. subst g. exfalso. apply T. cbn. do 2 eexists. exact V.
    - apply Un in Hg; auto. subst g. exfalso. apply T. cbn. auto.
    - apply Un in Hg; auto. subst g. exfalso. apply T. cbn. auto.
    - apply Un in Hg; auto. subst g. exfalso. apply T. cbn. auto.
    - apply Un in Hg; auto. subst g. exfalso. apply T. cbn. eauto. }
  unfold interp_leaf. destruct (is_int (f_ty f)) eqn:Hi.
  - assert (Hi' : integral (f_ty f)) by now apply integral_is.
    assert (Nt : f_ty f <> TStr /\ f_ty f <> TByt /\ forall s, f_ty f <> TMsg s) by (destruct (f_ty f); try discriminate Hi; repeat split; try discriminate).
    destruct Nt as (Nt1 & Nt2 & Nt3).
    destruct w as [k|b|b|b].
    + assert (Hk : k < u64_max) by (cbn in Ok; apply N.ltb_lt in Ok; exact Ok). destruct (int_of (f_ty f) k) as [z|] eqn:I; cbn [option_map].
      * apply int_value_of in I; [|exact Hk]. split; [intros [= <-]; now constructor|]. intros G. inversion G as [? ? ? ? No E1 E2|? ? g ? Hg Ng E1 E2|? ? g ? ? Hg V E1 E2| | | |]; subst.
        -- exfalso. exact (No f Hf eq_refl).
        -- apply Un in Hg; auto. subst g. exfalso. apply Ng. exact Hi'.
        -- apply Un in Hg; auto. subst g. apply int_value_of in V; [|exact Hk]. apply int_value_of in I; [|exact Hk]. congruence.
      * split; [discriminate|]. intros G. exfalso. inversion G as [? ? ? ? No E1 E2|? ? g ? Hg Ng E1 E2|? ? g ? ? Hg V E1 E2| | | |]; subst.
        -- exact (No f Hf eq_refl).
        -- apply Un in Hg; auto. subst g. apply Ng. exact Hi'.
        -- apply Un in Hg; auto. subst g. apply int_value_of in V; [|exact Hk]. congruence.
    + apply Oth. intros [].
    + destruct (f_card f) eqn:Hc; [apply Oth; cbn; intros [X|[X|[[s X]|[X _]]]]; try congruence; exact (Nt3 s X) | apply Oth; cbn; intros [X|[X|[[s X]|[X _]]]]; try congruence; exact (Nt3 s X) | ].
      destruct (parse_packed b) as [ks|] eqn:P.
      * pose proof (parse_packed_go_bound _ _ _ P) as B. apply packed_are in P. rewrite ints_is by exact B. split.
        -- intros (zs & Z & ->). eapply g_packed; eauto.
        -- intros G. inversion G as [? ? ? ? No E1 E2|? ? g ? Hg Ng E1 E2| |? ? g ? ks' zs Hg C I A V E1 E2|? ? g ? Hg Ty Tx E1 E2|? ? g ? Hg Ty E1 E2|? ? g sub ? ? Hg Ty En E1 E2]; subst.
           ++ exfalso. exact (No f Hf eq_refl).
           ++ apply Un in Hg; auto. subst g. exfalso. apply Ng. cbn. auto.
           ++ match goal with X : f_num g = f_num f |- _ => pose proof (Un g Hg X); subst g end. apply packed_are in A. apply packed_are in P. assert (ks' = ks) by congruence. subst. eauto.
           ++ apply Un in Hg; [subst g; congruence|assumption].
           ++ apply Un in Hg; [subst g; congruence|assumption].
           ++ apply Un in Hg; auto. subst g. exfalso. exact (Nt3 _ Ty).
      * split; [discriminate|]. intros G. exfalso. inversion G as [? ? ? ? No E1 E2|? ? g ? Hg Ng E1 E2| |? ? g ? ks' zs Hg C I A V E1 E2|? ? g ? Hg Ty Tx E1 E2|? ? g ? Hg Ty E1 E2|? ? g sub ? ? Hg Ty En E1 E2]; subst.
        -- exact (No f Hf eq_refl).
        -- apply Un in Hg; auto. subst g. apply Ng. cbn. auto.
        -- apply packed_are in A. congruence.
        -- apply Un in Hg; [subst g; congruence|assumption].
        -- apply Un in Hg; [subst g; congruence|assumption].
        -- apply Un in Hg; auto. subst g. exact (Nt3 _ Ty).
    + apply Oth. intros [].
  - assert (Hi' : ~ integral (f_ty f)) by (rewrite integral_is; congruence).
    destruct w as [k|b|b|b].
    + assert (T : ~ takes_value f (WVarint k)) by exact Hi'. specialize (Oth T). destruct (f_ty f); exact Oth.
    + assert (T : ~ takes_value f (WFixed64 b)) by (intros []). specialize (Oth T). destruct (f_ty f); exact Oth.
    + destruct (f_ty f) as [| | | | | | | |e|sub] eqn:Ty; try discriminate Hi.
      * destruct (utf8 b) eqn:U.
        -- apply utf8_is in U. split; [intros [= <-]; now constructor|]. intros G. inversion G as [? ? ? ? No E1 E2|? ? g ? Hg Ng E1 E2| |? ? g ? ks' zs Hg C I A V E1 E2|? ? g ? Hg Ty' Tx E1 E2|? ? g ? Hg Ty' E1 E2|? ? g sub ? ? Hg Ty' En E1 E2]; subst.
           ++ exfalso. exact (No f Hf eq_refl).
           ++ apply Un in Hg; auto. subst g. exfalso. apply Ng. cbn. auto.
           ++ match goal with X : f_num g = f_num f |- _ => pose proof (Un g Hg X); subst g end. exfalso. apply Hi'. rewrite <- Ty. exact I.
           ++ reflexivity.
           ++ apply Un in Hg; [subst g; congruence|assumption].
           ++ apply Un in Hg; [subst g; congruence|assumption].
        -- split; [discriminate|]. intros G. exfalso. inversion G as [? ? ? ? No E1 E2|? ? g ? Hg Ng E1 E2| |? ? g ? ks' zs Hg C I A V E1 E2|? ? g ? Hg Ty' Tx E1 E2|? ? g ? Hg Ty' E1 E2|? ? g sub ? ? Hg Ty' En E1 E2]; subst.
           ++ exact (No f Hf eq_refl).
           ++ apply Un in Hg; auto. subst g. apply Ng. cbn. auto.
           ++ match goal with X : f_num g = f_num f |- _ => pose proof (Un g Hg X); subst g end. apply Hi'. rewrite <- Ty. exact I.
           ++ apply utf8_is in Tx. congruence.
           ++ apply Un in Hg; [subst g; congruence|assumption].
           ++ apply Un in Hg; [subst g; congruence|assumption].
      * split; [intros [= <-]; now constructor|]. intros G. inversion G as [? ? ? ? No E1 E2|? ? g ? Hg Ng E1 E2| |? ? g ? ks' zs Hg C I A V E1 E2|? ? g ? Hg Ty' Tx E1 E2|? ? g ? Hg Ty' E1 E2|? ? g sub ? ? Hg Ty' En E1 E2]; subst.
        -- exfalso. exact (No f Hf eq_refl).
        -- apply Un in Hg; auto. subst g. exfalso. apply Ng. cbn. auto.
        -- match goal with X : f_num g = f_num f |- _ => pose proof (Un g Hg X); subst g end. exfalso. apply Hi'. rewrite <- Ty. exact I.
        -- reflexivity.
        -- reflexivity.
        -- apply Un in Hg; [subst g; congruence|assumption].
      * apply Oth. cbn. intros [X|[X|[[s X]|[_ X]]]]; try congruence.
      * exfalso. exact (Hs sub b eq_refl eq_refl).
    + assert (T : ~ takes_value f (WFixed32 b)) by (intros []). specialize (Oth T). destruct (f_ty f); exact Oth.
Qed.
Lemma give_msg d m f sub b x : In f (fields m) -> f_ty f = TMsg sub ->
  (give d m (f_num f, WLen b) x <-> exists d' fs, d = S d' /\ encodes d' sub b fs /\ x = [(f_num f, PMsg fs)]).
Proof.
  intros Hf Ty.
  assert (Un : forall g, In g (fields m) -> f_num g = f_num f -> g = f).
  { intros g G E. assert (find_field m (f_num f) = Some g) by now apply find_is. assert (find_field m (f_num f) = Some f) by now apply find_is. congruence. }
  split.
  - intros G. inversion G as [? ? ? ? No E1 E2|? ? g ? Hg Ng E1 E2| |? ? g ? ks' zs Hg C I A V E1 E2|? ? g ? Hg Ty' Tx E1 E2|? ? g ? Hg Ty' E1 E2|d' ? g sub' ? fs Hg Ty' En E1 E2]; subst.
    + exfalso. exact (No f Hf eq_refl).
    + apply Un in Hg; [|assumption]. subst g. exfalso. apply Ng. cbn. eauto.
    + match goal with X : f_num g = f_num f |- _ => pose proof (Un g Hg X); subst g end. exfalso. apply integral_is in I. rewrite Ty in I. discriminate.
    + apply Un in Hg; [subst g; congruence|assumption].
    + apply Un in Hg; [subst g; congruence|assumption].
    + apply Un in Hg; [|assumption]. subst g. assert (sub' = sub) by congruence. subst. eauto.
  - intros (d' & fs & -> & En & ->). eapply g_msg; eauto.
Qed.
Lemma interp_is d : forall m rs fs, forallb raw_ok rs = true -> (interp d m rs = Some fs <-> exists fss, gives d m rs fss /\ fs = concat fss).
Proof.
  induction d as [d IHd] using lt_wf_ind. intros m. induction rs as [|[n w] rs IH]; intros fs Ok.
  - rewrite interp_nil. split; [intros [= <-]; exists []; split; constructor|]. intros (fss & G & ->). inversion G. reflexivity.
  - cbn [forallb] in Ok. apply andb_true_iff in Ok as [Ok1 Ok2]. rewrite interp_cons. specialize (IH).
    match goal with |- context [match ?h with Some _ => _ | None => None end = Some fs] => set (here := h) end.
    assert (Here : forall x, here = Some x <-> give d m (n, w) x).
    { intros x. unfold here. destruct (find_field m n) as [f|] eqn:Ff.
      - apply find_is in Ff as [Hf <-]. destruct (f_ty f) as [| | | | | | | | |sub] eqn:Ty; try (apply leaf_is; [exact Hf|congruence|exact Ok1]).
        destruct w as [k|b|b|b]; try (apply leaf_is; [exact Hf|congruence|exact Ok1]).
        rewrite (give_msg d m f sub b x Hf Ty). destruct d as [|d].
        { split; [discriminate|]. intros (d' & fs' & X & _). discriminate. }
        assert (En : forall fs', encodes d sub b fs' <-> exists rs', parse_raw b = Some rs' /\ interp d sub rs' = Some fs').
        { intros fs'. split.
          - intros E. inversion E as [? ? ? rs' fss A G]; subst. apply fields_are in A. exists rs'. split; [exact A|]. apply (IHd d); [lia|exact (parse_raw_ok _ _ A)|]. eauto.
          - intros (rs' & A & I). apply (IHd d) in I as (fss & G & ->); [|lia|exact (parse_raw_ok _ _ A)]. apply fields_are in A. econstructor; eauto. }
        destruct (parse_raw b) as [rs'|] eqn:A.
        + split.
          * destruct (interp d sub rs') as [fs'|] eqn:I; [|discriminate]. intros [= <-]. exists d, fs'. split; [reflexivity|]. split; [|reflexivity]. apply En. eauto.
          * intros (d' & fs' & [= <-] & E & ->). apply En in E as (rs'' & [= <-] & I). rewrite I. reflexivity.
        + split; [discriminate|]. intros (d' & fs' & [= <-] & E & ->). apply En in E as (rs'' & X & _). discriminate.
      - pose proof (proj1 (find_not m n) Ff) as No. split; [intros [= <-]; now constructor|]. intros G.
        inversion G as [| ? ? g ? Hg Ng E1 E2|? ? g ? ? Hg V E1 E2|? ? g ? ks' zs Hg C I A V E1 E2|? ? g ? Hg Ty' Tx E1 E2|? ? g ? Hg Ty' E1 E2|d' ? g sub' ? fs' Hg Ty' En E1 E2]; subst; try reflexivity; exfalso; eapply No; eauto. }
    destruct here as [x|].
    + pose proof (proj1 (Here x) eq_refl) as G. split.
      * destruct (interp d m rs) as [y|] eqn:Y; [|discriminate]. intros [= <-]. destruct (proj1 (IH y Ok2) eq_refl) as (fss & Gs & ->). exists (x :: fss). split; [now constructor|reflexivity].
      * intros (fss & Gs & ->). inversion Gs as [|? ? ? x' ? xs G1 G2 E1 E2]; subst. apply Here in G1. injection G1 as <-.
        rewrite (proj2 (IH (concat xs) Ok2)) by eauto. reflexivity.
    + split; [discriminate|]. intros (fss & Gs & ->). inversion Gs as [|? ? ? x' ? xs G1 G2 E1 E2]; subst. apply Here in G1. discriminate.
Qed.
Lemma encodes_is d m b fs : encodes d m b fs <-> exists rs, parse_raw b = Some rs /\ interp d m rs = Some fs.
Proof.
  split.
  - intros E. inversion E as [? ? ? rs' fss A G]; subst. apply fields_are in A. exists rs'. split; [exact A|]. apply interp_is; [exact (parse_raw_ok _ _ A)|]. eauto.
  - intros (rs' & A & I). apply interp_is in I as (fss & G & ->); [|exact (parse_raw_ok _ _ A)]. apply fields_are in A. econstructor; eauto.
Qed.
Lemma present_is n fs : present n fs = true <-> exists v, In (n, v) fs /\ forall w, v <> PUnk w.
Proof.
  unfold present. rewrite existsb_exists. split.
  - intros ((k & v) & H & E). cbn in E. apply andb_true_iff in E as [E1 E2]. apply N.eqb_eq in E1 as ->. exists v. split; [exact H|]. intros w ->. discriminate.
  - intros (v & H & E). exists (n, v). split; [exact H|]. cbn. rewrite N.eqb_refl. destruct v; auto. exfalso. eapply E. reflexivity.
Qed.
Lemma required_is m fs : required_ok m fs = true <-> forall f, In f (fields m) -> f_card f = Req -> exists v, In (f_num f, v) fs /\ forall w, v <> PUnk w.
Proof.
  unfold required_ok. rewrite forallb_forall. split.
  - intros H f Hf C. specialize (H f Hf). rewrite C in H. now apply present_is.
  - intros H f Hf. specialize (H f Hf). destruct (f_card f); auto. apply present_is. auto.
Qed.
Lemma complete_is fs : forall m, initialized m fs = true <-> complete m fs.
Proof.
  unfold initialized. enough (G : forall v m, inited_val m v = true <-> forall s, v = PMsg s -> complete m s).
  { intros m. rewrite G. split; [auto|]. now intros H s [= <-]. }
  intros v. refine (pval_ind' (fun v => forall m, inited_val m v = true <-> forall s, v = PMsg s -> complete m s)
    (fun fs => forall m, (fix go (fs : message) : bool :=
         match fs with
         | [] => true
         | (n, x) :: r =>
             match find_field m n with
             | Some f => match f_ty f with TMsg sub => inited_val sub x | _ => true end
             | None => true
             end && go r
         end) fs = true <-> forall f sub s, In f (fields m) -> f_ty f = TMsg sub -> In (f_num f, PMsg s) fs -> complete sub s) _ _ _ _ _ _ v).
  - split; [intros _ s; discriminate|reflexivity].
  - split; [intros _ s; discriminate|reflexivity].
  - intros l IH m. cbn [inited_val]. rewrite andb_true_iff, IH, required_is. split.
    + intros [H1 H2] s [= <-]. now constructor.
    + intros H. specialize (H l eq_refl). inversion H; subst. auto.
  - split; [intros _ s; discriminate|reflexivity].
  - intros m. split; [intros _ f sub s _ _ []|reflexivity].
  - intros n x l IHx IHl m. rewrite andb_true_iff, IHl. split.
    + intros [H1 H2] f sub s Hf Ty [X|X]; [|eauto]. injection X as -> ->. assert (Ff : find_field m (f_num f) = Some f) by now apply find_is.
      rewrite Ff, Ty in H1. apply IHx with (s := s) in H1; auto.
    + intros H. split.
      * destruct (find_field m n) as [f|] eqn:Ff; auto. apply find_is in Ff as [Hf <-]. destruct (f_ty f) eqn:Ty; auto. apply IHx. intros s ->. eapply H; eauto. now left.
      * intros f sub s Hf Ty X. eapply H; eauto. now right.
Qed.
Theorem parse_is m b fs : parse_msg m b = Some fs <-> is_message m b fs.
Proof.
  unfold parse_msg, is_message. rewrite encodes_is, <- complete_is. change 100%nat with recursion_limit. split.
  - destruct (parse_raw b) as [rs|]; [|discriminate]. destruct (interp recursion_limit m rs) as [fs'|] eqn:I; [|discriminate].
    destruct (initialized m fs') eqn:C; [|discriminate]. intros [= <-]. split; [eauto|exact C].
  - intros [(rs & -> & ->) ->]. reflexivity.
Qed.
