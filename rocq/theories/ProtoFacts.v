(** Proofs about Proto.v: size, round trip, getters. *)
From Verif Require Import Bytes Wire Utf8 Proto.
Open Scope N_scope.

Lemma write_raws_cons f fs : write_raws (f :: fs) = write_field f ++ write_raws fs.
Proof. reflexivity. Qed.
Lemma write_raws_app a b : write_raws (a ++ b) = write_raws a ++ write_raws b.
Proof. unfold write_raws. now rewrite map_app, concat_app. Qed.
Lemma write_msg_cons n v fs : write_msg ((n, v) :: fs) = write_field (n, to_raw v) ++ write_msg fs.
Proof. reflexivity. Qed.
Lemma write_msg_app a b : write_msg (a ++ b) = write_msg a ++ write_msg b.
Proof. unfold write_msg, raws. now rewrite map_app, write_raws_app. Qed.
Lemma to_raw_msg fs : to_raw (PMsg fs) = WLen (write_msg fs).
Proof. reflexivity. Qed.

(** ** Sizes *)
Lemma val_size_msg fs : val_size (PMsg fs) = varint_size (compute_size fs) + compute_size fs.
Proof.
  assert (E : forall l, (fix go (fs : message) : N :=
                  match fs with
                  | [] => 0
                  | (n, x) :: r => varint_size (tag n (to_raw x)) + val_size x + go r
                  end) l = compute_size l).
  { induction l as [|[n v] r IH]; [reflexivity|]. cbn [compute_size]. now rewrite IH. }
  cbn [val_size]. now rewrite E.
Qed.

Lemma val_size_ok v : val_size v = blen (write_wval (to_raw v)).
Proof.
  apply (pval_ind' (fun v => val_size v = blen (write_wval (to_raw v)))
                   (fun fs => compute_size fs = blen (write_msg fs))).
  - intros z. cbn [val_size to_raw write_wval]. now rewrite write_varint_length.
  - intros b. cbn [val_size to_raw write_wval]. now rewrite blen_app, write_varint_length.
  - intros fs H. rewrite val_size_msg, to_raw_msg. cbn [write_wval].
    now rewrite blen_app, write_varint_length, H.
  - intros w. cbn [val_size to_raw]. apply wval_size_ok.
  - reflexivity.
  - intros n x fs H1 H2. cbn [compute_size]. rewrite write_msg_cons. unfold write_field. cbn [fst snd].
    rewrite !blen_app, write_varint_length, H1, H2. lia.
Qed.

Lemma compute_size_ok fs : compute_size fs = blen (write_msg fs).
Proof.
  induction fs as [|[n v] fs IH]; [reflexivity|].
  cbn [compute_size]. rewrite write_msg_cons. unfold write_field. cbn [fst snd].
  rewrite !blen_app, write_varint_length, val_size_ok, IH. lia.
Qed.

(** ** Integers *)
Lemma to_u64_bound z : to_u64 z < u64_max.
Proof. unfold to_u64, u64_max. pose proof (Z.mod_pos_bound z 18446744073709551616 ltac:(lia)). lia. Qed.

Lemma to_u64_nonneg z : (0 <= z < 18446744073709551616)%Z -> to_u64 z = Z.to_N z.
Proof. intros H. unfold to_u64. now rewrite Z.mod_small. Qed.

Lemma signed64_to_u64 z : (-9223372036854775808 <= z < 9223372036854775808)%Z -> signed64 (to_u64 z) = z.
Proof.
  intros H. unfold signed64, to_u64.
  destruct (Z.ltb_spec z 0).
  - replace (z mod 18446744073709551616)%Z with (z + 18446744073709551616)%Z.
    2:{ symmetry. rewrite <- (Z.mod_add z 1) by lia. apply Z.mod_small. lia. }
    destruct (N.ltb_spec (Z.to_N (z + 18446744073709551616)) 9223372036854775808); lia.
  - rewrite Z.mod_small by lia. destruct (N.ltb_spec (Z.to_N z) 9223372036854775808); lia.
Qed.

Lemma int_of_to_u64 t z : int_ok t z = true -> int_of t (to_u64 z) = Some z.
Proof.
  destruct t; cbn [int_ok int_of]; intros H; try discriminate.
  - rewrite to_u64_nonneg by lia. f_equal. lia.
  - rewrite to_u64_nonneg by lia. destruct (N.ltb_spec (Z.to_N z) u32_max); unfold u32_max in *; [f_equal|]; lia.
  - unfold i32_ok in H. rewrite signed64_to_u64 by lia. unfold i32_ok. now rewrite H.
  - rewrite signed64_to_u64 by lia. reflexivity.
  - rewrite to_u64_nonneg by lia. destruct (N.eqb_spec (Z.to_N z) 0); f_equal; lia.
  - unfold i32_ok in H. rewrite signed64_to_u64 by lia. unfold i32_ok. now rewrite H.
Qed.

Lemma int_ok_is_int t z : int_ok t z = true -> is_int t = true.
Proof. destruct t; simpl; congruence. Qed.

(** ** Round trip *)
Lemma write_field_len_bound n w : blen (write_wval w) <= blen (write_field (n, w)).
Proof. unfold write_field. rewrite blen_app. cbn [snd]. lia. Qed.

Lemma wt_cons depth m n v r :
  wt depth m ((n, v) :: r) = true ->
  num_ok n = true /\ wt depth m r = true /\
  match find_field m n with
  | None => match v with PUnk w => wval_ok w | _ => false end
  | Some f =>
      match v with
      | PInt z => int_ok (f_ty f) z
      | PBytes b => match f_ty f with TStr => utf8 b | TByt => true | _ => false end
      | PUnk w => wval_ok w && unk_ok f w
      | PMsg sub => match f_ty f, depth with TMsg s, S d => wt d s sub | _, _ => false end
      end
  end = true.
Proof.
  intros H. destruct depth; cbn [wt] in H;
  apply andb_true_iff in H; destruct H as [H1 H2];
  apply andb_true_iff in H1; destruct H1 as [H1 H3]; auto.
Qed.

Lemma raws_ok depth m fs : wt depth m fs = true -> blen (write_msg fs) < u64_max ->
  forallb raw_ok (raws fs) = true.
Proof.
  induction fs as [|[n v] fs IH]; [reflexivity|]. intros H Hb.
  apply wt_cons in H. destruct H as (Hn & Hr & Hv).
  rewrite write_msg_cons, blen_app in Hb.
  cbn [raws map forallb]. change (map _ fs) with (raws fs). rewrite IH by (auto; lia).
  unfold raw_ok. cbn [fst snd]. rewrite Hn. cbn [andb]. rewrite andb_true_r.
  assert (Hw := write_field_len_bound n (to_raw v)).
  destruct v as [z|b|sub|w].
  - cbn [to_raw wval_ok]. pose proof (to_u64_bound z). lia.
  - cbn [to_raw wval_ok]. cbn [to_raw write_wval] in Hw. rewrite blen_app in Hw. cbn [to_raw] in Hb. lia.
  - rewrite to_raw_msg in *. cbn [wval_ok]. cbn [write_wval] in Hw. rewrite blen_app in Hw. lia.
  - cbn [to_raw]. destruct (find_field m n); [now apply andb_true_iff in Hv|exact Hv].
Qed.

Lemma interp_cons depth m n w r :
  interp depth m ((n, w) :: r) =
  match
    match find_field m n with
    | None => Some [(n, PUnk w)]
    | Some f =>
        match f_ty f, w with
        | TMsg sub, WLen b =>
            match depth with
            | O => None
            | S d => match parse_raw b with
                     | Some rs' => option_map (fun fs => [(n, PMsg fs)]) (interp d sub rs')
                     | None => None
                     end
            end
        | _, _ => interp_leaf f n w
        end
    end
  with
  | Some x => option_map (app x) (interp depth m r)
  | None => None
  end.
Proof. destruct depth; reflexivity. Qed.

Lemma interp_nil depth m : interp depth m [] = Some [].
Proof. destruct depth; reflexivity. Qed.

Lemma interp_leaf_unk f n w : unk_ok f w = true -> interp_leaf f n w = Some [(n, PUnk w)].
Proof.
  unfold interp_leaf. destruct f as [k c t]; cbn [f_ty f_card].
  destruct t, w, c; cbn; intros H; try discriminate; reflexivity.
Qed.

Lemma interp_raws depth : forall m fs, wt depth m fs = true -> blen (write_msg fs) < u64_max ->
  interp depth m (raws fs) = Some fs.
Proof.
  induction depth as [|d IHd]; intros m fs.
  - induction fs as [|[n v] fs IH]; intros H Hb; [reflexivity|].
    apply wt_cons in H. destruct H as (Hn & Hr & Hv).
    rewrite write_msg_cons, blen_app in Hb.
    cbn [raws map]. change (map _ fs) with (raws fs).
    rewrite interp_cons, IH by (auto; lia).
    destruct (find_field m n) as [f|] eqn:Ef.
    2:{ destruct v; try discriminate. reflexivity. }
    destruct v as [z|b|sub|w].
    + cbn [to_raw]. unfold interp_leaf. rewrite (int_ok_is_int _ _ Hv), (int_of_to_u64 _ _ Hv).
      destruct (f_ty f); reflexivity.
    + cbn [to_raw]. unfold interp_leaf. destruct (f_ty f); try discriminate; cbn; [now rewrite Hv|reflexivity].
    + destruct (f_ty f); discriminate.
    + apply andb_true_iff in Hv. destruct Hv as [Hw Hu]. cbn [to_raw].
      rewrite (interp_leaf_unk f n w Hu). unfold unk_ok in Hu.
      destruct (f_ty f), w; try reflexivity; discriminate.
  - induction fs as [|[n v] fs IH]; intros H Hb; [reflexivity|].
    apply wt_cons in H. destruct H as (Hn & Hr & Hv).
    rewrite write_msg_cons, blen_app in Hb.
    cbn [raws map]. change (map _ fs) with (raws fs).
    rewrite interp_cons, IH by (auto; lia).
    assert (Hw := write_field_len_bound n (to_raw v)).
    destruct (find_field m n) as [f|] eqn:Ef.
    2:{ destruct v; try discriminate. reflexivity. }
    destruct v as [z|b|sub|w].
    + cbn [to_raw]. unfold interp_leaf. rewrite (int_ok_is_int _ _ Hv), (int_of_to_u64 _ _ Hv).
      destruct (f_ty f); reflexivity.
    + cbn [to_raw]. unfold interp_leaf. destruct (f_ty f); try discriminate; cbn; [now rewrite Hv|reflexivity].
    + rewrite to_raw_msg in *. cbn [write_wval] in Hw. rewrite blen_app in Hw.
      destruct (f_ty f); try discriminate.
      assert (Hsub : blen (write_msg sub) < u64_max) by lia.
      unfold write_msg at 1. rewrite parse_write_raws by (eapply raws_ok; eauto).
      rewrite IHd by auto. reflexivity.
    + apply andb_true_iff in Hv. destruct Hv as [Hw' Hu]. cbn [to_raw].
      rewrite (interp_leaf_unk f n w Hu). unfold unk_ok in Hu.
      destruct (f_ty f), w; try reflexivity; discriminate.
Qed.

Theorem parse_write_msg m fs : well_typed m fs = true -> blen (write_msg fs) < u64_max ->
  parse_msg m (write_msg fs) = Some fs.
Proof.
  unfold well_typed, parse_msg. intros H Hb. apply andb_true_iff in H. destruct H as [Hw Hi].
  unfold write_msg at 1. rewrite parse_write_raws by (eapply raws_ok; eauto).
  rewrite interp_raws by auto. now rewrite Hi.
Qed.

(** ** Parsed messages are well typed *)
Lemma signed64_range n : n < u64_max -> (-9223372036854775808 <= signed64 n < 9223372036854775808)%Z.
Proof. unfold signed64, u64_max. intros H. destruct (N.ltb_spec n 9223372036854775808); lia. Qed.

Lemma int_of_ok t n z : n < u64_max -> int_of t n = Some z -> int_ok t z = true.
Proof.
  intros Hn. destruct t; cbn [int_of int_ok]; intros H; try discriminate.
  - injection H as <-. unfold u64_max in *. lia.
  - destruct (N.ltb_spec n u32_max); [|discriminate]. injection H as <-. unfold u32_max in *. lia.
  - destruct (i32_ok (signed64 n)) eqn:E; [|discriminate]. injection H as <-. exact E.
  - injection H as <-. pose proof (signed64_range n Hn). lia.
  - injection H as <-. destruct (n =? 0); reflexivity.
  - destruct (i32_ok (signed64 n)) eqn:E; [|discriminate]. injection H as <-. exact E.
Qed.

Lemma read_field_ok b f r : read_field b = Some (f, r) -> raw_ok f = true.
Proof.
  unfold read_field, raw_ok. destruct (read_varint b) as [[t b1]|] eqn:E1; [|discriminate].
  destruct (num_ok (t / 8)) eqn:En; cbn [negb]; [|discriminate].
  intros H.
  destruct (t mod 8) as [|[p|p|]] eqn:Em.
  - destruct (read_varint b1) as [[n r']|] eqn:E2; [|discriminate].
    apply read_varint_bound in E2. injection H as <- _. cbn [fst snd]. rewrite En. cbn. lia.
  - destruct p as [p|[p|p|]|]; try discriminate.
    destruct (take_n 4 b1) as [[x y]|] eqn:E2; [|discriminate].
    apply take_n_some in E2. injection H as <- _. cbn [fst snd]. rewrite En. cbn. lia.
  - destruct p as [p|p|]; try discriminate.
    destruct (read_varint b1) as [[l b2]|] eqn:E2; [|discriminate].
    apply read_varint_bound in E2.
    destruct (take_n l b2) as [[x y]|] eqn:E3; [|discriminate].
    apply take_n_some in E3. injection H as <- _. cbn [fst snd]. rewrite En. cbn. lia.
  - destruct (take_n 8 b1) as [[x y]|] eqn:E2; [|discriminate].
    apply take_n_some in E2. injection H as <- _. cbn [fst snd]. rewrite En. cbn. lia.
Qed.

Lemma parse_raw_go_ok fuel b rs : parse_raw_go fuel b = Some rs -> forallb raw_ok rs = true.
Proof.
  revert b rs. induction fuel as [|f IH]; intros [|x b] rs H; cbn [parse_raw_go] in H;
    try (injection H as <-; reflexivity); try discriminate.
  destruct (read_field (x :: b)) as [[y r]|] eqn:E; [|discriminate].
  destruct (parse_raw_go f r) as [l|] eqn:El; [|discriminate]. injection H as <-.
  cbn [forallb]. rewrite (read_field_ok _ _ _ E). now apply IH in El.
Qed.
Lemma parse_raw_ok b rs : parse_raw b = Some rs -> forallb raw_ok rs = true.
Proof. apply parse_raw_go_ok. Qed.

Lemma parse_packed_go_bound fuel b l : parse_packed_go fuel b = Some l -> Forall (fun k => k < u64_max) l.
Proof.
  revert b l. induction fuel as [|f IH]; intros [|x b] rs H; cbn [parse_packed_go] in H;
    try (injection H as <-; constructor); try discriminate.
  destruct (read_varint (x :: b)) as [[y r]|] eqn:E; [|discriminate].
  destruct (parse_packed_go f r) as [l|] eqn:El; [|discriminate]. injection H as <-.
  constructor; [now apply read_varint_bound in E|now apply IH in El].
Qed.

Lemma wt_app depth m a b : wt depth m (a ++ b) = wt depth m a && wt depth m b.
Proof.
  induction a as [|[n v] a IH].
  - destruct depth; reflexivity.
  - destruct depth as [|d]; cbn [app wt];
      (etransitivity; [apply f_equal; exact IH | apply andb_assoc]).
Qed.

Lemma wt_one depth m n v f : num_ok n = true -> find_field m n = Some f ->
  (match v with
   | PInt z => int_ok (f_ty f) z
   | PBytes b => match f_ty f with TStr => utf8 b | TByt => true | _ => false end
   | PUnk w => wval_ok w && unk_ok f w
   | PMsg sub => match f_ty f, depth with TMsg s, S d => wt d s sub | _, _ => false end
   end = true) -> wt depth m [(n, v)] = true.
Proof. intros Hn Hf Hv. destruct depth; cbn [wt]; rewrite Hn, Hf, Hv; reflexivity. Qed.

Lemma ints_of_wt depth m f n l : find_field m n = Some f -> num_ok n = true ->
  Forall (fun k => k < u64_max) l ->
  forall x, ints_of (f_ty f) n l = Some x -> wt depth m x = true.
Proof.
  intros Hf Hn Hl. induction Hl as [|k l Hk Hl IH]; cbn [ints_of]; intros x H.
  - injection H as <-. destruct depth; reflexivity.
  - destruct (int_of (f_ty f) k) as [z|] eqn:E; [|discriminate].
    destruct (ints_of (f_ty f) n l) as [y|] eqn:Ey; [|discriminate]. injection H as <-.
    change ((n, PInt z) :: y) with ([(n, PInt z)] ++ y). rewrite wt_app.
    rewrite (wt_one depth m n (PInt z) f Hn Hf) by (eapply int_of_ok; eauto).
    cbn [andb]. now apply IH.
Qed.

Lemma interp_leaf_wt depth m f n w x : find_field m n = Some f -> raw_ok (n, w) = true ->
  match f_ty f, w with TMsg _, WLen _ => False | _, _ => True end ->
  interp_leaf f n w = Some x -> wt depth m x = true.
Proof.
  intros Hf Hr Hnm. unfold raw_ok in Hr. cbn [fst snd] in Hr. apply andb_true_iff in Hr. destruct Hr as [Hn Hw].
  unfold interp_leaf. destruct (is_int (f_ty f)) eqn:Ei.
  - destruct w as [k|b|b|b].
    + destruct (int_of (f_ty f) k) as [z|] eqn:E; [|discriminate]. intros H. injection H as <-.
      apply (wt_one depth m n (PInt z) f Hn Hf). cbn [wval_ok] in Hw. eapply int_of_ok; [|exact E]. lia.
    + intros H. injection H as <-. apply (wt_one depth m n _ f Hn Hf). cbn [wval_ok] in *. rewrite Hw.
      unfold unk_ok. destruct (f_ty f); reflexivity.
    + destruct (f_card f) eqn:Ec.
      * intros H. injection H as <-. apply (wt_one depth m n _ f Hn Hf). rewrite Hw. unfold unk_ok. rewrite Ec.
        destruct (f_ty f); try discriminate; reflexivity.
      * intros H. injection H as <-. apply (wt_one depth m n _ f Hn Hf). rewrite Hw. unfold unk_ok. rewrite Ec.
        destruct (f_ty f); try discriminate; reflexivity.
      * destruct (parse_packed b) as [l|] eqn:El; [|discriminate]. intros H.
        eapply (ints_of_wt depth m f n l); [exact Hf|exact Hn| |exact H].
        eapply parse_packed_go_bound; exact El.
    + intros H. injection H as <-. apply (wt_one depth m n _ f Hn Hf). cbn [wval_ok] in *. rewrite Hw.
      unfold unk_ok. destruct (f_ty f); reflexivity.
  - destruct (f_ty f) eqn:Et; try discriminate; destruct w as [k|b|b|b]; try contradiction; intros H;
      try (injection H as <-; apply (wt_one depth m n _ f Hn Hf); rewrite ?Et; try rewrite Hw;
           unfold unk_ok; rewrite ?Et; reflexivity).
    destruct (utf8 b) eqn:Eu; [|discriminate]. injection H as <-.
    apply (wt_one depth m n _ f Hn Hf). rewrite Et. exact Eu.
Qed.

Lemma interp_wt depth : forall m rs fs, forallb raw_ok rs = true ->
  interp depth m rs = Some fs -> wt depth m fs = true.
Proof.
  induction depth as [|d IHd]; intros m rs; induction rs as [|[n w] rs IH]; intros fs Hok H.
  - injection H as <-. reflexivity.
  - cbn [forallb] in Hok. apply andb_true_iff in Hok. destruct Hok as [Hf Hok].
    rewrite interp_cons in H.
    match type of H with match ?h with _ => _ end = _ => destruct h as [x|] eqn:Eh end; [|discriminate].
    destruct (interp 0 m rs) as [y|] eqn:Ey; [|discriminate]. injection H as <-.
    rewrite wt_app. rewrite (IH y Hok eq_refl), andb_true_r.
    destruct (find_field m n) as [f|] eqn:Ef.
    + destruct (f_ty f) eqn:Et; try (eapply interp_leaf_wt; eauto; rewrite Et; exact I).
      destruct w; try (eapply interp_leaf_wt; eauto; rewrite Et; exact I). discriminate.
    + injection Eh as <-. unfold raw_ok in Hf. cbn [fst snd] in Hf. apply andb_true_iff in Hf.
      destruct Hf as [H1 H2]. cbn [wt]. now rewrite H1, Ef, H2.
  - injection H as <-. reflexivity.
  - cbn [forallb] in Hok. apply andb_true_iff in Hok. destruct Hok as [Hf Hok].
    rewrite interp_cons in H.
    match type of H with match ?h with _ => _ end = _ => destruct h as [x|] eqn:Eh end; [|discriminate].
    destruct (interp (S d) m rs) as [y|] eqn:Ey; [|discriminate]. injection H as <-.
    rewrite wt_app. rewrite (IH y Hok eq_refl), andb_true_r.
    destruct (find_field m n) as [f|] eqn:Ef.
    + destruct (f_ty f) eqn:Et; try (eapply interp_leaf_wt; eauto; rewrite Et; exact I).
      destruct w as [k|b|b|b]; try (eapply interp_leaf_wt; eauto; rewrite Et; exact I).
      destruct (parse_raw b) as [rs'|] eqn:Ep; [|discriminate].
      destruct (interp d m0 rs') as [sub|] eqn:Es; [|discriminate]. injection Eh as <-.
      unfold raw_ok in Hf. cbn [fst snd] in Hf. apply andb_true_iff in Hf. destruct Hf as [H1 H2].
      apply (wt_one (S d) m n (PMsg sub) f H1 Ef). rewrite Et.
      eapply IHd; [eapply parse_raw_ok; exact Ep|exact Es].
    + injection Eh as <-. unfold raw_ok in Hf. cbn [fst snd] in Hf. apply andb_true_iff in Hf.
      destruct Hf as [H1 H2]. cbn [wt]. now rewrite H1, Ef, H2.
Qed.

Theorem parse_msg_well_typed m b fs : parse_msg m b = Some fs -> well_typed m fs = true.
Proof.
  unfold parse_msg, well_typed. destruct (parse_raw b) as [rs|] eqn:Er; [|discriminate].
  destruct (interp recursion_limit m rs) as [x|] eqn:Ei; [|discriminate].
  destruct (initialized m x) eqn:En; [|discriminate]. intros H. injection H as <-.
  rewrite En, andb_true_r. eapply interp_wt; [eapply parse_raw_ok; exact Er|exact Ei].
Qed.
