(** C16 (acknowledgement), C17, C25, C26, C27, C31: what consumers hand out. *)
From Verif Require Import Bytes Errors Wire Utf8 Proto ProtoFacts Codec Message SpecProto SimFacts SpecMessage MessageFacts InboundFacts ProtoFacts
  Consumer SpecConsumer ConsumerFacts ConsumerRuns.
From Coq Require Import Permutation.
Open Scope N_scope.

(** * C17: acknowledgement ids *)
Lemma decode_parts_iff {T} (decode : bytes -> option T) parts : forall l,
  decode_parts decode parts = Some l <-> Forall2 (fun p v => decode (bp_data p) = Some v) parts l.
Proof.
  induction parts as [|p parts IH]; intros l; cbn.
  - split; intros H; inversion H; subst; constructor.
  - destruct (decode (bp_data p)) as [v|] eqn:E.
    + destruct (decode_parts decode parts) as [l'|] eqn:E2.
      * split; intros H; [inversion H; subst; constructor; [exact E|now apply IH]|].
        inversion H; subst. rewrite E in H2. inversion H2; subst. apply IH in H4. congruence.
      * split; intros H; [discriminate|]. inversion H; subst. apply IH in H4. discriminate.
    + split; intros H; [discriminate|]. inversion H; subst. congruence.
Qed.
Lemma number_nth {T} mid (l : list T) : forall i k,
  nth_error (number_from i mid l) k = option_map (fun v => mk_cmsg v (with_batch_index (as_i32 (i + N.of_nat k)) mid)) (nth_error l k).
Proof.
  induction l as [|v l IH]; intros i [|k]; cbn [number_from nth_error option_map]; try reflexivity.
  - now rewrite N.add_0_r.
  - rewrite IH. destruct (nth_error l k); [|reflexivity]. cbn. do 4 f_equal. lia.
Qed.
Lemma number_length {T} mid (l : list T) : forall i, length (number_from i mid l) = length l.
Proof. induction l as [|v l IH]; intros i; cbn; auto. Qed.
Lemma nth_ext_eq {A} (l l' : list A) : (forall i, nth_error l i = nth_error l' i) -> l = l'.
Proof.
  revert l'. induction l as [|x l IH]; intros [|y l'] H; [reflexivity| | |].
  - specialize (H O). discriminate.
  - specialize (H O). discriminate.
  - pose proof (H O) as H0. cbn in H0. inversion H0; subst. f_equal. apply IH. intros i. apply (H (S i)).
Qed.
Lemma Forall2_nth {A B} (R : A -> B -> Prop) l l' : Forall2 R l l' <->
  length l = length l' /\ forall i a b, nth_error l i = Some a -> nth_error l' i = Some b -> R a b.
Proof.
  split.
  - induction 1 as [|a b l l' HR HF [IHl IH]]; [split; [reflexivity|intros [|i]; discriminate]|].
    split; [cbn; congruence|]. intros [|i] x y Hx Hy; cbn in *; [congruence|eauto].
  - revert l'. induction l as [|a l IH]; intros [|b l'] [HL HN]; try discriminate; constructor.
    + now apply (HN O).
    + apply IH. split; [cbn in HL; congruence|]. intros i. apply (HN (S i)).
Qed.

(** What [next] makes of an entry is exactly what the entry holds. *)
Theorem C17_unpack_iff : forall T (decode : bytes -> option T) d ms, unpack decode d = Ok ms <-> holds decode d ms.
Proof.
  intros T decode [c mid data|c mid parts] ms; cbn.
  - destruct (decode data) as [v|] eqn:E; split.
    + intros H; inversion H; subst; eauto.
    + intros (v' & E' & ->). congruence.
    + discriminate.
    + intros (v' & E' & ->). discriminate.
  - destruct (decode_parts decode parts) as [l|] eqn:E.
    + pose proof (proj1 (decode_parts_iff _ _ _) E) as HF. apply Forall2_nth in HF. destruct HF as [HL HF]. split.
      * intros H; inversion H; subst. rewrite number_length. split; [congruence|]. intros i m p Hm Hp.
        rewrite number_nth in Hm. destruct (nth_error l i) as [v|] eqn:EV; [|discriminate]. cbn in Hm. inversion Hm; subst. cbn. eauto.
      * intros [HL2 HN]. f_equal. apply nth_ext_eq. intros i. rewrite number_nth.
        destruct (nth_error ms i) as [m|] eqn:EM.
        -- assert (Hi : (i < length parts)%nat) by (rewrite <- HL2; apply nth_error_Some; congruence).
           destruct (nth_error parts i) as [p|] eqn:EP; [|apply nth_error_None in EP; lia].
           destruct (nth_error l i) as [v|] eqn:EV; [|apply nth_error_None in EV; lia].
           destruct (HN _ _ _ EM EP) as [HD HA]. pose proof (HF _ _ _ EP EV) as HD2. cbn in HD2. cbn [option_map]. f_equal.
           destruct m as [pl ak]; cbn in *. subst ak. rewrite HD2 in HD. inversion HD; subst. reflexivity.
        -- destruct (nth_error l i) as [v|] eqn:EV; [|reflexivity]. apply nth_error_None in EM.
           assert (i < length l)%nat by (apply nth_error_Some; congruence). lia.
    + split; [discriminate|]. intros [HL HN]. exfalso.
      assert (HF : Forall2 (fun p v => decode (bp_data p) = Some v) parts (map cm_payload ms)).
      { apply Forall2_nth. rewrite map_length. split; [congruence|]. intros i p v Hp Hv. rewrite nth_error_map in Hv.
        destruct (nth_error ms i) as [m|] eqn:EM; [|discriminate]. cbn in Hv. inversion Hv; subst. now apply (HN _ _ _ EM Hp). }
      apply decode_parts_iff in HF. congruence.
Qed.

(** Getters of [with_batch_index]. *)
Definition own4 (p : N * pval) : bool := (fst p =? 4) && match snd p with PUnk _ => false | _ => true end.
Lemma occ_wbi n i mid : n <> 4 -> occurrences n (with_batch_index i mid) = occurrences n mid.
Proof.
  intros Hn. unfold with_batch_index, occurrences. rewrite filter_app, map_app. cbn [filter fst].
  destruct (4 =? n) eqn:E; [apply N.eqb_eq in E; congruence|]. cbn. rewrite app_nil_r. f_equal.
  induction mid as [|[k v] mid IH]; [reflexivity|]. cbn. destruct ((k =? 4) && _) eqn:E4; cbn.
  - apply andb_true_iff in E4. destruct E4 as [E4 _]. apply N.eqb_eq in E4. subst. now rewrite E.
  - destruct (k =? n); [f_equal|]; exact IH.
Qed.
Lemma get_z_wbi i mid : get_z 4 (with_batch_index i mid) = Some i.
Proof. unfold with_batch_index. rewrite get_z_app. reflexivity. Qed.

(** The acknowledgement of the i-th message of a batch names batch index i and is
    otherwise the entry's own id (ledger, entry, partition, ...). *)
Theorem C17_batch_ack_ids : forall T (decode : bytes -> option T) c mid parts ms i m,
  unpack decode (DBatch c mid parts) = Ok ms -> N.of_nat (length parts) < 2 ^ 31 -> nth_error ms i = Some m ->
  get_z 4 (cm_ack m) = Some (Z.of_nat i) /\
  forall f, f <> 4 -> get_z f (cm_ack m) = get_z f mid /\ get_b f (cm_ack m) = get_b f mid /\
                      get_m f (cm_ack m) = get_m f mid /\ get_ms f (cm_ack m) = get_ms f mid.
Proof.
  intros T decode c mid parts ms i m HU HL HM. apply C17_unpack_iff in HU. destruct HU as [HE HN].
  assert (Hi : (i < length ms)%nat) by (apply nth_error_Some; congruence).
  destruct (nth_error parts i) as [p|] eqn:EP; [|apply nth_error_None in EP; lia].
  destruct (HN _ _ _ HM EP) as [_ ->]. change (2 ^ 31) with 2147483648 in HL. split.
  - rewrite get_z_wbi, as_i32_small by lia. f_equal. lia.
  - intros f Hf. rewrite !get_z_occ, !get_b_occ, !get_m_occ, !get_ms_occ, !occ_wbi by exact Hf. auto.
Qed.
(** Whatever batch index the entry's id carried is replaced, not kept beside the new one. *)
Theorem C17_one_batch_index : forall T (decode : bytes -> option T) c mid parts ms i m v,
  unpack decode (DBatch c mid parts) = Ok ms -> N.of_nat (length parts) < 2 ^ 31 -> nth_error ms i = Some m ->
  In v (occurrences 4 (cm_ack m)) -> v = PInt (Z.of_nat i) \/ exists w, v = PUnk w.
Proof.
  intros T decode c mid parts ms i m v HU HL HM. apply C17_unpack_iff in HU. destruct HU as [HE HN].
  assert (Hi : (i < length ms)%nat) by (apply nth_error_Some; congruence).
  destruct (nth_error parts i) as [p|] eqn:EP; [|apply nth_error_None in EP; lia].
  destruct (HN _ _ _ HM EP) as [_ ->]. change (2 ^ 31) with 2147483648 in HL. unfold occurrences, with_batch_index. intros HV.
  apply in_map_iff in HV as ([k x] & E & HV). cbn in E. subst x. apply filter_In in HV as [HV Hk]. cbn in Hk. apply N.eqb_eq in Hk. subst k.
  apply in_app_iff in HV as [HV|[HV|[]]].
  - apply filter_In in HV as [_ HV]. cbn in HV. destruct v; try discriminate. eauto.
  - injection HV as <-. left. f_equal. rewrite as_i32_small by lia. lia.
Qed.
Print Assumptions C17_one_batch_index.
(** Different messages of one batch have different acknowledgements. *)
Theorem C17_batch_acks_distinct : forall T (decode : bytes -> option T) c mid parts ms i j m m',
  unpack decode (DBatch c mid parts) = Ok ms -> N.of_nat (length parts) < 2 ^ 31 ->
  nth_error ms i = Some m -> nth_error ms j = Some m' -> i <> j -> cm_ack m <> cm_ack m'.
Proof.
  intros T decode c mid parts ms i j m m' HU HL Hi Hj HN HE.
  destruct (C17_batch_ack_ids _ _ _ _ _ _ _ _ HU HL Hi) as [Ei _].
  destruct (C17_batch_ack_ids _ _ _ _ _ _ _ _ HU HL Hj) as [Ej _]. rewrite HE, Ej in Ei. inversion Ei. lia.
Qed.
Lemma get_z_int_ok d m n f fs z : find_field m n = Some f -> wt d m fs = true -> get_z n fs = Some z -> int_ok (f_ty f) z = true.
Proof.
  intros Hf. unfold get_z.
  assert (H : forall a, wt d m fs = true -> match a with Some y => int_ok (f_ty f) y = true | None => True end ->
    fold_left (fun acc p => if fst p =? n then match snd p with PInt z => Some z | _ => acc end else acc) fs a = Some z -> int_ok (f_ty f) z = true).
  { induction fs as [|[k v] fs IH]; intros a Hw Ha E.
    - cbn in E. subst a. exact Ha.
    - apply wt_cons in Hw. destruct Hw as (Hk & Hr & Hv). cbn [fold_left fst snd] in E. eapply IH; [exact Hr| |exact E].
      destruct (N.eqb_spec k n) as [->|Hne]; [|exact Ha]. rewrite Hf in Hv. destruct v; auto. }
  intros Hw E. eapply H; eauto. exact I.
Qed.
(** The bound on the batch size always holds for an entry that was parsed from
    bytes: the declared number of messages is an int32. *)
Theorem C17_parsed_batches_small : forall mb data cmd meta c mid parts,
  parse_msg M_MessageMetadata mb = Some meta ->
  to_inbound (mk_cmd cmd (Some (mk_payload meta data))) = Ok (InMessage (DBatch c mid parts)) ->
  N.of_nat (length parts) < 2 ^ 31.
Proof.
  intros mb data cmd meta c mid parts Hm HI. apply to_inbound_means in HI. inversion HI; subst.
  match goal with H : mc_payload _ = Some _ |- _ => cbn in H; injection H as <- end.
  match goal with H : get_z 11 _ = Some _ |- _ => cbn [pl_meta] in H; rename H into HZ end.
  apply parse_msg_well_typed in Hm. unfold well_typed in Hm. apply andb_true_iff in Hm. destruct Hm as [Hw _].
  destruct (find_field M_MessageMetadata 11) as [f|] eqn:EF; [|discriminate]. apply (get_z_int_ok _ _ _ _ _ _ EF Hw) in HZ. vm_compute in EF. injection EF as <-. cbn in HZ. unfold i32_ok in HZ. change (2 ^ 31) with 2147483648. lia.
Qed.
(** Acknowledging a message of a batch is a well-formed request whenever the
    entry's id was (so C10 applies to it). *)
Theorem C17_ack_is_sendable : forall n mid, mid_ok mid -> mid_ok (with_batch_index (as_i32 n) mid).
Proof.
  intros n mid [HW HI]. unfold with_batch_index. set (keep := fun p : N * pval => _). split.
  - rewrite wt_app. apply andb_true_iff. split.
    + clear HI. induction mid as [|[k v] mid IH]; [exact HW|]. pose proof (wt_cons _ _ _ _ _ HW) as (H1 & H2 & _).
      cbn [filter]. destruct (keep (k, v)); [|auto]. change ((k, v) :: mid) with ([(k, v)] ++ mid) in HW. rewrite wt_app in HW.
      apply andb_true_iff in HW. destruct HW as [HW _]. change ((k, v) :: filter keep mid) with ([(k, v)] ++ filter keep mid).
      rewrite wt_app, HW, (IH H2). reflexivity.
    + eapply wt_one; [reflexivity|reflexivity|apply as_i32_ok].
  - unfold initialized in *. rewrite inited_msg in *. apply andb_true_iff in HI. destruct HI as [HR HF]. apply andb_true_iff. split.
    + assert (HP : forall k, k <> 4 -> present k mid = true -> present k (filter keep mid ++ [(4, PInt (as_i32 n))]) = true).
      { intros k Hk HP. unfold present in *. rewrite existsb_app. apply orb_true_iff. left.
        apply existsb_exists in HP. destruct HP as (x & Hx & Hb). apply existsb_exists. exists x. split; [|exact Hb].
        apply filter_In. split; [exact Hx|]. unfold keep. apply andb_true_iff in Hb. destruct Hb as [Hb _].
        apply N.eqb_eq in Hb. destruct (N.eqb_spec (fst x) 4); [congruence|reflexivity]. }
      cbn in HR |- *. apply andb_true_iff in HR. destruct HR as [H1 HR]. apply andb_true_iff in HR. destruct HR as [H2 _].
      rewrite (HP 1 ltac:(discriminate) H1), (HP 2 ltac:(discriminate) H2). reflexivity.
    + rewrite forallb_app. apply andb_true_iff. split; [|reflexivity]. rewrite forallb_forall in *. intros x Hx.
      apply filter_In in Hx. now apply HF.
Qed.
(** * C16: the acknowledgement of a single message names the broker's id. *)
Theorem C16_single_ack : forall T (decode : bytes -> option T) c mid data ms,
  unpack decode (DSingle c mid data) = Ok ms -> exists v, decode data = Some v /\ ms = [mk_cmsg v mid].
Proof. intros T decode c mid data ms H. now apply C17_unpack_iff in H. Qed.

(** * C25 *)
(** At every moment of every schedule of concurrent, possibly dropped,
    next_message calls: what was returned, followed by what is still pending, is
    exactly what the broker delivered, in order. *)
Theorem C25_exactly_once_in_order : forall T (decode : bytes -> option T) permits h s,
  only_next_message h -> reaches decode permits h s ->
  returned (c_log s) ++ pending decode s = stream decode (arrivals h).
Proof.
  intros T decode permits h s HO HR. unfold reaches in HR.
  destruct (run_nm decode h _ _ (init_lock permits) (init_nm permits) HO HR) as [_ HV]. exact HV.
Qed.
(** Every successful next_message returns one message. *)
Theorem C25_one_message_per_call : forall T (decode : bytes -> option T) permits h s t ms,
  only_next_message h -> reaches decode permits h s -> In (Returned t NextMessage (Ok ms)) (c_log s) -> length ms = 1%nat.
Proof.
  intros T decode permits h s t ms HO HR. revert HO t ms. unfold reaches in HR. revert h s HR.
  apply (crun_ind decode (fun h s => only_next_message h -> forall t ms, In (Returned t NextMessage (Ok ms)) (c_log s) -> length ms = 1%nat)).
  - intros _ t ms [].
  - intros h s e s' HR IH HS HO t ms HI.
    assert (HO' : only_next_message h) by (intros u k Hk; apply (HO u); apply in_or_app; now left).
    specialize (IH HO').
    destruct (run_nm decode h _ _ (init_lock permits) (init_nm permits) HO' HR) as [(HK & HRv & HC) _].
    assert (HOld : In (Returned t NextMessage (Ok ms)) (c_log s) -> length ms = 1%nat) by eauto.
    assert (HN : forall o, In (Returned t NextMessage (Ok ms)) (c_log s ++ [o]) -> (o = Returned t NextMessage (Ok ms) -> length ms = 1%nat) -> length ms = 1%nat).
    { intros o Hin Ho. apply in_app_or in Hin. destruct Hin as [Hin|[E|[]]]; auto. }
    destruct e as [u k|u|u|i|]; cbn in HS.
    + destruct (c_tasks s u); inversion HS; subst. cbn in HI. auto.
    + destruct (c_tasks s u) as [p|] eqn:ET; [|discriminate]. pose proof (HK _ _ ET) as Hk.
      destruct p as [k|k c|k|k|k taken|k out]; cbn in Hk; subst k; cbn in HS.
      * inversion HS; subst. auto.
      * destruct (c_open s); inversion HS; subst; cbn in HI; (eapply HN; [exact HI|discriminate]).
      * inversion HS; subst. auto.
      * destruct (c_lock s); [discriminate|]. destruct (c_buf s); inversion HS; subst; cbn in HI; [auto|].
        eapply HN; [exact HI|]. intros E. inversion E; subst. reflexivity.
      * destruct (c_queue s) as [|i q]; [destruct (c_open s); inversion HS; subst; cbn in HI; (eapply HN; [exact HI|discriminate])|].
        destruct i; try (inversion HS; subst; auto; fail).
        destruct (unpack decode d) as [[|m r]|e|]; inversion HS; subst; cbn in HI; try (eapply HN; [exact HI|discriminate]); auto.
      * inversion HS; subst. cbn in HI. eapply HN; [exact HI|]. intros E. inversion E; subst. eauto.
    + destruct (c_tasks s u) as [p|] eqn:ET; [|discriminate]. destruct p; inversion HS; subst; auto.
    + destruct (c_open s); inversion HS; subst; auto.
    + inversion HS; subst; auto.
Qed.

(** A batch that the connection delivered has at least two messages. *)
Lemma received_holds {T} (decode : bytes -> option T) d ms : received (InMessage d) -> unpack decode d = Ok ms ->
  match d with DSingle _ _ _ => length ms = 1%nat | DBatch _ _ _ => (2 <= length ms)%nat end.
Proof.
  intros [mc HM] HU. apply C17_unpack_iff in HU. apply to_inbound_means in HM. destruct d as [c mid data|c mid parts]; cbn in HU.
  - destruct HU as (v & _ & ->). reflexivity.
  - destruct HU as [HL _]. inversion HM; subst. lia.
Qed.

(** Nothing that is pending is out of reach: whenever no other call is under way,
    a next_message call returns the next pending message. (If the engine is gone
    it needs no permit refill first.) *)
Theorem C25_next_call_returns_next : forall T (decode : bytes -> option T) permits h s t x rest,
  reaches decode permits h s -> quiet s -> pending decode s = x :: rest ->
  (forall d, In (InMessage d) (c_queue s) -> received (InMessage d) /\ exists ms, unpack decode d = Ok ms) ->
  c_open s = true \/ c_counter s < c_permits s ->
  exists n s' flows, crun decode s (Start t NextMessage :: repeat (Step t) n) = Some s' /\ quiet s' /\
    c_log s' = c_log s ++ flows ++ [Returned t NextMessage (Ok [x])] /\ returned flows = [] /\ pending decode s' = rest.
Proof.
  intros T decode permits h s t x rest HR HQ HP HD HO.
  pose proof (run_lock decode h _ _ (init_lock permits) HR) as HL. pose proof (quiet_unlocked _ HL HQ) as EL.
  unfold pending in HP. rewrite (free_hand s EL) in HP. cbn [app] in HP.
  set (s0 := goto s t (AtCheck NextMessage)).
  assert (H0 : cstep decode s (Start t NextMessage) = Some s0) by (cbn [cstep]; now rewrite (HQ t)).
  destruct (run_check decode t NextMessage s0) as (s1 & flows & Hs1 & HT1 & HX1 & EP1 & EB1 & EL1 & EQ1 & EO1 & EG1 & HF1);
    [unfold s0; cbn; now lk|exact HO|].
  assert (HX : others t s s1) by (apply (others_trans t s s0 s1); [intros u Hu; unfold s0; cbn; now lk|exact HX1]).
  assert (EL1' : c_lock s1 = None) by (rewrite EL1; exact EL).
  assert (Fin : forall s', steps decode t s1 s' -> others t s1 s' -> c_tasks s' t = None ->
    c_log s' = c_log s1 ++ [Returned t NextMessage (Ok [x])] -> pending decode s' = rest ->
    exists n s' flows, crun decode s (Start t NextMessage :: repeat (Step t) n) = Some s' /\ quiet s' /\
      c_log s' = c_log s ++ flows ++ [Returned t NextMessage (Ok [x])] /\ returned flows = [] /\ pending decode s' = rest).
  { intros s' K1 K2 K3 K4 K5. destruct (steps_trans _ _ _ _ _ Hs1 K1) as [n Hn]. exists n, s', flows.
    split; [cbn [crun]; rewrite H0; exact Hn|]. split.
    - intros u. destruct (Nat.eq_dec u t) as [->|Hu]; [exact K3|]. rewrite K2, HX by exact Hu. apply HQ.
    - split; [rewrite K4, EG1; cbn; now rewrite <- app_assoc|]. auto. }
  destruct (c_buf s) as [|m r] eqn:EB.
  - (* nothing buffered: receive *)
    cbn [app] in HP. set (s2 := goto (with_lock s1 (Some t)) t (AtRecv NextMessage [])).
    assert (H2 : cstep decode s1 (Step t) = Some s2).
    { cbn [cstep]. rewrite HT1. cbn [call_step]. rewrite EL1', EB1. change (c_buf s0) with (c_buf s). now rewrite EB. }
    destruct (split_queue (c_queue s)) as (junk & q & EQ & HJ & HQ2).
    rewrite EQ, stream_app, (junk_stream _ _ HJ) in HP. cbn [app] in HP.
    destruct HQ2 as [->|(d & q' & ->)]; [discriminate|].
    destruct (run_skip decode t NextMessage [] junk (InMessage d :: q') s2) as (s3 & Hs3 & ET3 & EQ3 & EB3 & EL3 & EG3 & EO3 & _);
      [unfold s2; cbn; now lk| |exact HJ|].
    { unfold s2. cbn. rewrite EQ1. exact EQ. }
    destruct (HD d) as [Hrec [ms EU]]; [rewrite EQ; apply in_or_app; right; now left|]. pose proof (received_holds _ _ _ Hrec EU) as Hlen.
    destruct ms as [|m r]; [destruct d; cbn in Hlen; lia|].
    rewrite stream_cons in HP. cbn [event_messages] in HP. rewrite EU in HP. inversion HP; subst m rest. clear HP.
    set (s4 := goto (with_buf (with_queue s3 q') (c_buf s3 ++ r)) t (AtCount NextMessage [x])).
    assert (H4 : cstep decode s3 (Step t) = Some s4).
    { cbn [cstep]. rewrite ET3. unfold s2 at 1. cbn [goto c_tasks]. lk. cbn [call_step]. rewrite EQ3, EU. reflexivity. }
    set (s5 := finish (with_counter s4 ((c_counter s4 + 1) mod u32_max)) t NextMessage (Ok [x]) None).
    assert (H5 : cstep decode s4 (Step t) = Some s5).
    { cbn [cstep]. unfold s4 at 1. cbn [goto c_tasks]. lk. reflexivity. }
    apply (Fin s5).
    + eapply steps_next; [exact H2|]. eapply steps_trans; [exact Hs3|]. eapply steps_next; [exact H4|]. apply steps_one. exact H5.
    + intros u Hu. unfold s5, s4. cbn. lk. rewrite ET3. unfold s2. cbn. now lk.
    + unfold s5. cbn. now lk.
    + unfold s5, s4. cbn. now rewrite EG3.
    + unfold pending, in_hand, s5, s4. cbn. rewrite EB3. unfold s2. cbn. rewrite EB1. change (c_buf s0) with (c_buf s). rewrite EB. reflexivity.
  - cbn [app] in HP. inversion HP; subst m rest.
    set (s2 := finish (with_buf s1 r) t NextMessage (Ok [x]) None).
    assert (H2 : cstep decode s1 (Step t) = Some s2).
    { cbn [cstep]. rewrite HT1. cbn [call_step]. rewrite EL1', EB1. change (c_buf s0) with (c_buf s). now rewrite EB. }
    apply (Fin s2).
    + apply steps_one. exact H2.
    + intros u Hu. unfold s2. cbn. now lk.
    + unfold s2. cbn. now lk.
    + reflexivity.
    + unfold pending, in_hand, s2. cbn. now rewrite EQ1.
Qed.
(** * C26 *)
(** An entry received from a broker never unpacks to nothing. *)
Theorem C26_entry_sizes : forall T (decode : bytes -> option T) d ms, received (InMessage d) -> unpack decode d = Ok ms ->
  match d with DSingle _ _ _ => length ms = 1%nat | DBatch _ _ _ => (2 <= length ms)%nat end.
Proof. intros T decode d ms HR HU. exact (received_holds decode d ms HR HU). Qed.

Lemma queue_arrived {T} (decode : bytes -> option T) permits h s : reaches decode permits h s -> incl (c_queue s) (arrivals h).
Proof.
  unfold reaches. revert h s. apply (crun_ind decode (fun h s => incl (c_queue s) (arrivals h))); [intros i []|].
  intros h s e s' _ IH HS. rewrite arrivals_app.
  assert (HI : incl (c_queue s) (arrivals h ++ arrivals [e])) by (intros i Hi; apply in_or_app; left; auto).
  assert (HT : forall i q, c_queue s = i :: q -> incl q (arrivals h ++ arrivals [e])) by (intros i q E j Hj; apply HI; rewrite E; now right).
  destruct e as [u k|u|u|i|]; cbn in HS.
  - destruct (c_tasks s u); inversion HS; subst; exact HI.
  - destruct (c_tasks s u) as [p|]; [|discriminate]. destruct p as [k|k c|k|k|k taken|k out]; cbn in HS.
    + inversion HS; subst; exact HI.
    + destruct (c_open s); inversion HS; subst; exact HI.
    + inversion HS; subst; exact HI.
    + destruct k; (destruct (c_lock s); [discriminate|]); [destruct (c_buf s)|]; inversion HS; subst; exact HI.
    + destruct (c_queue s) as [|i q] eqn:EQ; [destruct (c_open s); inversion HS; subst; cbn; rewrite EQ; exact HI|].
      specialize (HT _ _ eq_refl). destruct i; try (inversion HS; subst; exact HT).
      destruct (unpack decode d) as [ms|e|]; [destruct k; [destruct ms|]|..]; inversion HS; subst; exact HT.
    + inversion HS; subst; exact HI.
  - destruct (c_tasks s u) as [p|]; [|discriminate]. destruct p; inversion HS; subst; exact HI.
  - destruct (c_open s); inversion HS; subst. cbn. intros j Hj. apply in_app_or in Hj. destruct Hj as [Hj|[<-|[]]]; [auto|].
    apply in_or_app. right. now left.
  - inversion HS; subst; exact HI.
Qed.
Lemma unpack_panic {T} (decode : bytes -> option T) d : unpack decode d = Panic <->
  exists c mid parts p, d = DBatch c mid parts /\ In p parts /\ decode (bp_data p) = None.
Proof.
  destruct d as [c mid data|c mid parts]; cbn.
  - destruct (decode data); (split; [discriminate|]); intros (? & ? & ? & ? & E & _); discriminate.
  - transitivity (decode_parts decode parts = None).
    + destruct (decode_parts decode parts); split; congruence.
    + assert (HE : decode_parts decode parts = None <-> exists p, In p parts /\ decode (bp_data p) = None).
      { induction parts as [|p parts IH]; cbn; [split; [discriminate|intros (? & [] & _)]|].
        destruct (decode (bp_data p)) as [v|] eqn:E.
        - destruct (decode_parts decode parts).
          + split; [discriminate|]. intros (p' & [<-|Hp] & Hn); [congruence|]. destruct IH as [_ IH]. discriminate IH. eauto.
          + split; [|reflexivity]. intros _. destruct (proj1 IH eq_refl) as (p' & Hp & Hn). eauto.
        - split; [|reflexivity]. intros _. eauto. }
      rewrite HE. split; [intros (p & Hp & Hn); eauto 8|]. intros (c' & mid' & parts' & p & E & Hp & Hn). inversion E; subst. eauto.
Qed.
(** No schedule of next_message and next_batch calls makes a call panic, unless a
    batch with an undecodable payload was delivered. *)
Theorem C26_panic_only_from_undecodable_batch : forall T (decode : bytes -> option T) permits h s t k,
  reaches decode permits h s -> (forall i, In i (arrivals h) -> received i) -> In (Returned t k Panic) (c_log s) ->
  exists c mid parts p, In (InMessage (DBatch c mid parts)) (arrivals h) /\ In p parts /\ decode (bp_data p) = None.
Proof.
  intros T decode permits h s t k HR. revert t k. pose proof HR as HR'. unfold reaches in HR'. revert HR. revert h s HR'.
  apply (crun_ind decode (fun h s => reaches decode permits h s -> forall t k, (forall i, In i (arrivals h) -> received i) ->
    In (Returned t k Panic) (c_log s) -> exists c mid parts p, In (InMessage (DBatch c mid parts)) (arrivals h) /\ In p parts /\ decode (bp_data p) = None)).
  - intros _ t k _ [].
  - intros h s e s' HR IH HS _ t k HA HI. specialize (IH HR). rewrite arrivals_app in *.
    assert (HA' : forall i, In i (arrivals h) -> received i) by (intros i Hi; apply HA; apply in_or_app; now left).
    set (Goal := exists c mid parts p, In (InMessage (DBatch c mid parts)) (arrivals h ++ arrivals [e]) /\ In p parts /\ decode (bp_data p) = None).
    assert (HOld : In (Returned t k Panic) (c_log s) -> Goal).
    { intros Hin. destruct (IH t k HA' Hin) as (c & mid & parts & p & H1 & H2). exists c, mid, parts, p.
      split; [apply in_or_app; now left|exact H2]. }
    assert (HN : forall o, In (Returned t k Panic) (c_log s ++ [o]) -> (o = Returned t k Panic -> Goal) -> Goal).
    { intros o Hin Ho. apply in_app_or in Hin. destruct Hin as [Hin|[E|[]]]; auto. }
    destruct e as [u k'|u|u|i|]; cbn in HS.
    + destruct (c_tasks s u); inversion HS; subst; auto.
    + destruct (c_tasks s u) as [p|]; [|discriminate]. destruct p as [k'|k' c|k'|k'|k' taken|k' out]; cbn in HS.
      * inversion HS; subst; auto.
      * destruct (c_open s); inversion HS; subst; cbn in HI; (eapply HN; [exact HI|discriminate]).
      * inversion HS; subst; auto.
      * destruct k'; (destruct (c_lock s); [discriminate|]); [destruct (c_buf s)|]; inversion HS; subst; cbn in HI; auto.
        eapply HN; [exact HI|discriminate].
      * destruct (c_queue s) as [|i q] eqn:EQ; [destruct (c_open s); inversion HS; subst; cbn in HI; (eapply HN; [exact HI|discriminate])|].
        destruct i; try (inversion HS; subst; auto; fail).
        assert (Hin : In (InMessage d) (arrivals h)) by (apply (queue_arrived decode permits h s HR); rewrite EQ; now left).
        destruct (unpack decode d) as [ms|er|] eqn:EU.
        -- pose proof (C26_entry_sizes _ _ _ _ (HA' _ Hin) EU) as Hlen.
           destruct k'; [destruct ms; [destruct d; cbn in Hlen; lia|]|]; inversion HS; subst; cbn in HI; auto.
        -- inversion HS; subst; cbn in HI. eapply HN; [exact HI|discriminate].
        -- apply unpack_panic in EU. destruct EU as (c & mid & parts & p & -> & Hp & Hn). exists c, mid, parts, p.
           split; [apply in_or_app; now left|auto].
      * inversion HS; subst; cbn in HI. eapply HN; [exact HI|discriminate].
    + destruct (c_tasks s u) as [p|]; [|discriminate]. destruct p; inversion HS; subst; auto.
    + destruct (c_open s); inversion HS; subst; auto.
    + inversion HS; subst; auto.
Qed.
(** A call that receives a batch with an undecodable payload panics, and the
    whole batch is gone; a call that receives an undecodable single message
    returns DeserializationFailed, and that message is gone. *)
Theorem C26_undecodable_batch_panics : forall T (decode : bytes -> option T) s t k taken c mid parts p q,
  c_tasks s t = Some (AtRecv k taken) -> c_queue s = InMessage (DBatch c mid parts) :: q ->
  In p parts -> decode (bp_data p) = None ->
  exists s', cstep decode s (Step t) = Some s' /\ c_log s' = c_log s ++ [Returned t k Panic] /\
    c_queue s' = q /\ c_buf s' = c_buf s /\ c_lock s' = None.
Proof.
  intros T decode s t k taken c mid parts p q HT HQ Hp Hn.
  assert (EU : unpack decode (DBatch c mid parts) = Panic) by (apply unpack_panic; eauto 8).
  eexists. split; [cbn [cstep]; rewrite HT; cbn [call_step]; rewrite HQ, EU; reflexivity|]. auto.
Qed.
Theorem C26_undecodable_single_fails : forall T (decode : bytes -> option T) s t k taken c mid data q,
  c_tasks s t = Some (AtRecv k taken) -> c_queue s = InMessage (DSingle c mid data) :: q -> decode data = None ->
  exists s', cstep decode s (Step t) = Some s' /\ c_log s' = c_log s ++ [Returned t k (Err DeserializationFailed)] /\
    c_queue s' = q /\ c_buf s' = c_buf s /\ c_lock s' = None.
Proof.
  intros T decode s t k taken c mid data q HT HQ Hn.
  eexists. split; [cbn [cstep]; rewrite HT; cbn [call_step]; rewrite HQ; cbn [unpack]; rewrite Hn; reflexivity|]. auto.
Qed.

(** * C27, C31 *)
(** What is neither returned nor pending any more is never returned later,
    whatever calls follow, provided the broker does not deliver it again. *)
Lemma gone_is_gone {T} (decode : bytes -> option T) permits h s h' s' x :
  reaches decode permits h s -> crun decode s h' = Some s' -> NoDup (stream decode (arrivals (h ++ h'))) ->
  In x (stream decode (arrivals h)) -> ~ In x (returned (c_log s) ++ pending decode s) -> ~ In x (returned (c_log s')).
Proof.
  intros HR HC HN HX HG HI. pose proof (run_lock decode h _ _ (init_lock permits) HR) as HL.
  pose proof (run_part decode h' _ _ HL HC) as HP.
  assert (HV : In x (visible decode s')) by (unfold visible; apply in_or_app; now left).
  apply (part_In _ _ _ HP) in HV. apply in_app_or in HV. destruct HV as [HV|HV]; [now apply HG|].
  rewrite arrivals_app, stream_app in HN. revert HN HX HV. clear. generalize (stream decode (arrivals h)) as a, (stream decode (arrivals h')) as b.
  intros a b. induction a as [|y a IH]; cbn; [tauto|]. intros HN [->|HX] HV; inversion HN; subst.
  - apply H1. apply in_or_app. now right.
  - auto.
Qed.
Lemma run_nodup {T} (decode : bytes -> option T) permits h s : reaches decode permits h s -> NoDup (stream decode (arrivals h)) ->
  NoDup (returned (c_log s) ++ pending decode s) /\ incl (returned (c_log s) ++ pending decode s) (stream decode (arrivals h)).
Proof.
  intros HR HN. pose proof (run_part decode h _ _ (init_lock permits) HR) as HP. cbn in HP. split.
  - exact (part_NoDup _ _ HP HN).
  - intros x Hx. exact (part_In _ _ _ HP Hx).
Qed.

(** Under every interleaving, next_batch(n) returns at most n messages. *)
Theorem C27_at_most_n : forall T (decode : bytes -> option T) permits h s t n ms,
  reaches decode permits h s -> In (Returned t (NextBatch n) (Ok ms)) (c_log s) -> (length ms <= n)%nat.
Proof.
  intros T decode permits h s t n ms HR.
  assert (HA : (forall t n ms, In (Returned t (NextBatch n) (Ok ms)) (c_log s) -> (length ms <= n)%nat) /\
               (forall t n l, c_tasks s t = Some (AtRecv (NextBatch n) l) -> (length l <= n)%nat) /\
               (forall t n l, c_tasks s t = Some (AtCount (NextBatch n) l) -> (length l <= n)%nat)).
  2:{ destruct HA as [HA _]. apply HA. }
  clear t n ms. revert h s HR. unfold reaches.
  apply (crun_ind decode (fun h s => (forall t n ms, In (Returned t (NextBatch n) (Ok ms)) (c_log s) -> (length ms <= n)%nat) /\
               (forall t n l, c_tasks s t = Some (AtRecv (NextBatch n) l) -> (length l <= n)%nat) /\
               (forall t n l, c_tasks s t = Some (AtCount (NextBatch n) l) -> (length l <= n)%nat))).
  - split; [intros t n ms []|split; discriminate].
  - intros h s e s' _ (HG & HR & HC) HS.
    assert (HN : forall o, match o with Returned t (NextBatch n) (Ok ms) => (length ms <= n)%nat | _ => True end ->
       forall t n ms, In (Returned t (NextBatch n) (Ok ms)) (c_log s ++ [o]) -> (length ms <= n)%nat).
    { intros o Ho t n ms Hin. apply in_app_or in Hin. destruct Hin as [Hin|[E|[]]]; [eauto|]. subst o. exact Ho. }
    assert (HT : forall t q, match q with Some (AtRecv (NextBatch n) l) | Some (AtCount (NextBatch n) l) => (length l <= n)%nat | _ => True end ->
       (forall u n l, set_task (c_tasks s) t q u = Some (AtRecv (NextBatch n) l) -> (length l <= n)%nat) /\
       (forall u n l, set_task (c_tasks s) t q u = Some (AtCount (NextBatch n) l) -> (length l <= n)%nat)).
    { intros t q Hq. split; intros u n l Hu; (destruct (Nat.eq_dec u t) as [->|NE]; lk; [subst q; exact Hq|eauto]). }
    destruct e as [u k'|u|u|i|]; cbn in HS.
    + destruct (c_tasks s u); inversion HS; subst. split; [exact HG|]. apply HT. exact I.
    + destruct (c_tasks s u) as [p|] eqn:ET; [|discriminate]. destruct p as [k'|k' c|k'|k'|k' taken|k' out]; cbn in HS.
      * inversion HS; subst. split; [exact HG|]. apply HT. destruct (_ <=? _); exact I.
      * destruct (c_open s); inversion HS; subst; (split; [apply HN; now try destruct k'|apply HT; exact I]).
      * inversion HS; subst. split; [exact HG|]. apply HT. exact I.
      * destruct k' as [|n]; (destruct (c_lock s); [discriminate|]); [destruct (c_buf s)|]; inversion HS; subst.
        -- split; [exact HG|]. apply HT. exact I.
        -- split; [apply HN; exact I|]. apply HT. exact I.
        -- split; [exact HG|]. apply HT. destruct (_ =? _)%nat; rewrite firstn_length; lia.
      * destruct (c_queue s) as [|i q] eqn:EQ; [destruct (c_open s); inversion HS; subst; (split; [apply HN; now destruct k'|apply HT; exact I])|].
        destruct i; try (inversion HS; subst; split; [exact HG|split; assumption]; fail).
        destruct (unpack decode d) as [ms|er|] eqn:EU.
        -- destruct k' as [|n]; [destruct ms|]; inversion HS; subst; cbn [c_log c_tasks goto finish with_queue with_buf].
           ++ split; [apply HN; exact I|]. apply HT. exact I.
           ++ split; [exact HG|]. apply HT. exact I.
           ++ split; [exact HG|]. apply HT. rewrite app_length, firstn_length. specialize (HR _ _ _ ET). lia.
        -- inversion HS; subst; (split; [apply HN; now destruct k'|apply HT; exact I]).
        -- inversion HS; subst; (split; [apply HN; now destruct k'|apply HT; exact I]).
      * inversion HS; subst; (split; [apply HN|apply HT; exact I]). destruct k'; [exact I|]. exact (HC _ _ _ ET).
    + destruct (c_tasks s u) as [p|]; [|discriminate]. destruct p; inversion HS; subst; (split; [exact HG|apply HT; exact I]).
    + destruct (c_open s); inversion HS; subst. split; [exact HG|split; assumption].
    + inversion HS; subst. split; [exact HG|split; assumption].
Qed.
(** A next_batch call that finds enough messages in the buffer returns its last
    n, last first, and takes nothing from the channel. *)
Theorem C27_from_buffer : forall T (decode : bytes -> option T) permits h s t n,
  reaches decode permits h s -> quiet s -> c_open s = true \/ c_counter s < c_permits s -> (n <= length (c_buf s))%nat ->
  exists m s' flows, crun decode s (Start t (NextBatch n) :: repeat (Step t) m) = Some s' /\ quiet s' /\
    c_log s' = c_log s ++ flows ++ [Returned t (NextBatch n) (Ok (rev (skipn (length (c_buf s) - n) (c_buf s))))] /\
    returned flows = [] /\ c_buf s' = firstn (length (c_buf s) - n) (c_buf s) /\ c_queue s' = c_queue s.
Proof.
  intros T decode permits h s t n HR HQ HO HL.
  pose proof (run_lock decode h _ _ (init_lock permits) HR) as HLk. pose proof (quiet_unlocked _ HLk HQ) as EL.
  set (s0 := goto s t (AtCheck (NextBatch n))).
  assert (H0 : cstep decode s (Start t (NextBatch n)) = Some s0) by (cbn [cstep]; now rewrite (HQ t)).
  destruct (run_check decode t (NextBatch n) s0) as (s1 & flows & Hs1 & HT1 & HX1 & EP1 & EB1 & EL1 & EQ1 & EO1 & EG1 & HF1);
    [unfold s0; cbn; now lk|exact HO|].
  assert (EL1' : c_lock s1 = None) by (rewrite EL1; exact EL).
  assert (EB1' : c_buf s1 = c_buf s) by (rewrite EB1; reflexivity).
  set (out := rev (skipn (length (c_buf s) - n) (c_buf s))).
  set (s2 := goto (with_lock (with_buf s1 (firstn (length (c_buf s) - n) (c_buf s))) (Some t)) t (AtCount (NextBatch n) out)).
  assert (H2 : cstep decode s1 (Step t) = Some s2).
  { cbn [cstep]. rewrite HT1. cbn [call_step]. rewrite EL1', EB1'. unfold pop_up_to. rewrite firstn_rev, skipn_rev, rev_involutive.
    fold out. replace (length out =? n)%nat with true; [reflexivity|]. symmetry. apply Nat.eqb_eq. unfold out. rewrite rev_length, skipn_length. lia. }
  set (s3 := finish (with_counter s2 ((c_counter s2 + N.of_nat (length out)) mod u32_max)) t (NextBatch n) (Ok out) None).
  assert (H3 : cstep decode s2 (Step t) = Some s3) by (cbn [cstep]; unfold s2 at 1; cbn [goto c_tasks]; lk; reflexivity).
  destruct (steps_trans _ _ _ _ _ Hs1 (steps_next _ _ _ _ _ H2 (steps_one _ _ _ _ H3))) as [m Hm].
  exists m, s3, flows. split; [cbn [crun]; rewrite H0; exact Hm|]. split.
  - intros u. unfold s3, s2. cbn. destruct (Nat.eq_dec u t) as [->|Hu]; [now lk|]. lk. rewrite HX1 by exact Hu. unfold s0. cbn. lk. apply HQ.
  - split; [unfold s3, s2; cbn; rewrite EG1; cbn; now rewrite <- app_assoc|]. split; [exact HF1|]. split; [reflexivity|].
    unfold s3, s2. cbn. now rewrite EQ1.
Qed.
(** Otherwise it returns everything in the buffer, last first, and then the last
    messages of the next entry, last first, as many as there is room for. The
    earlier messages of the entry are gone: no later call returns them. *)
Theorem C27_from_buffer_and_entry : forall T (decode : bytes -> option T) permits h s t n junk d q ms,
  reaches decode permits h s -> quiet s -> c_open s = true \/ c_counter s < c_permits s -> (length (c_buf s) < n)%nat ->
  c_queue s = junk ++ InMessage d :: q -> (forall i, In i junk -> is_entry i = false) -> unpack decode d = Ok ms ->
  let room := (n - length (c_buf s))%nat in
  let lost := firstn (length ms - room) ms in
  exists m s' flows, crun decode s (Start t (NextBatch n) :: repeat (Step t) m) = Some s' /\ quiet s' /\
    c_log s' = c_log s ++ flows ++ [Returned t (NextBatch n) (Ok (rev (c_buf s) ++ rev (skipn (length ms - room) ms)))] /\
    returned flows = [] /\ c_buf s' = [] /\ c_queue s' = q /\
    (forall x h' s'', In x lost -> crun decode s' h' = Some s'' -> NoDup (stream decode (arrivals (h ++ h'))) ->
       ~ In x (returned (c_log s''))) /\
    (Permutation (returned (c_log s') ++ pending decode s') (returned (c_log s) ++ pending decode s) <-> (length ms <= room)%nat).
Proof.
  intros T decode permits h s t n junk d q ms HR HQ HO HL EQ HJ EU room lost.
  pose proof (run_lock decode h _ _ (init_lock permits) HR) as HLk. pose proof (quiet_unlocked _ HLk HQ) as EL.
  set (s0 := goto s t (AtCheck (NextBatch n))).
  assert (H0 : cstep decode s (Start t (NextBatch n)) = Some s0) by (cbn [cstep]; now rewrite (HQ t)).
  destruct (run_check decode t (NextBatch n) s0) as (s1 & flows & Hs1 & HT1 & HX1 & EP1 & EB1 & EL1 & EQ1 & EO1 & EG1 & HF1);
    [unfold s0; cbn; now lk|exact HO|].
  assert (EL1' : c_lock s1 = None) by (rewrite EL1; exact EL).
  assert (EB1' : c_buf s1 = c_buf s) by (rewrite EB1; reflexivity).
  set (s2 := goto (with_lock (with_buf s1 []) (Some t)) t (AtRecv (NextBatch n) (rev (c_buf s)))).
  assert (H2 : cstep decode s1 (Step t) = Some s2).
  { cbn [cstep]. rewrite HT1. cbn [call_step]. rewrite EL1', EB1'. unfold pop_up_to.
    rewrite firstn_all2, skipn_all2 by (rewrite rev_length; lia).
    replace (length (rev (c_buf s)) =? n)%nat with false; [reflexivity|]. symmetry. apply Nat.eqb_neq. rewrite rev_length. lia. }
  assert (HJ' : forallb (fun i => negb (is_entry i)) junk = true) by (apply forallb_forall; intros i Hi; now rewrite (HJ i Hi)).
  destruct (run_skip decode t (NextBatch n) (rev (c_buf s)) junk (InMessage d :: q) s2) as (s3 & Hs3 & ET3 & EQ3 & EB3 & EL3 & EG3 & EO3 & _);
    [unfold s2; cbn; now lk|unfold s2; cbn; rewrite EQ1; exact EQ|exact HJ'|].
  set (out := rev (c_buf s) ++ rev (skipn (length ms - room) ms)).
  set (s4 := goto (with_queue s3 q) t (AtCount (NextBatch n) out)).
  assert (H4 : cstep decode s3 (Step t) = Some s4).
  { cbn [cstep]. rewrite ET3. unfold s2 at 1. cbn [goto c_tasks]. lk. cbn [call_step]. rewrite EQ3, EU. unfold pop_up_to. cbn [fst].
    rewrite rev_length, firstn_rev. reflexivity. }
  set (s5 := finish (with_counter s4 ((c_counter s4 + N.of_nat (length out)) mod u32_max)) t (NextBatch n) (Ok out) None).
  assert (H5 : cstep decode s4 (Step t) = Some s5) by (cbn [cstep]; unfold s4 at 1; cbn [goto c_tasks]; lk; reflexivity).
  destruct (steps_trans _ _ _ _ _ Hs1 (steps_next _ _ _ _ _ H2 (steps_trans _ _ _ _ _ Hs3 (steps_next _ _ _ _ _ H4 (steps_one _ _ _ _ H5))))) as [m Hm].
  assert (HC : crun decode s (Start t (NextBatch n) :: repeat (Step t) m) = Some s5) by (cbn [crun]; rewrite H0; exact Hm).
  assert (ELog : c_log s5 = c_log s ++ flows ++ [Returned t (NextBatch n) (Ok out)]).
  { unfold s5, s4. cbn. rewrite EG3. unfold s2. cbn. rewrite EG1. cbn. now rewrite <- app_assoc. }
  assert (EBuf : c_buf s5 = []) by (unfold s5, s4; cbn; rewrite EB3; reflexivity).
  assert (EPend : pending decode s5 = stream decode q) by (unfold pending, in_hand; rewrite EBuf; reflexivity).
  assert (ERet : returned (c_log s5) = returned (c_log s) ++ out).
  { rewrite ELog, app_assoc, ret_ok, returned_app, HF1, app_nil_r. reflexivity. }
  assert (EOld : returned (c_log s) ++ pending decode s = returned (c_log s) ++ c_buf s ++ ms ++ stream decode q).
  { unfold pending. rewrite (free_hand s EL), EQ, stream_app, (junk_stream _ _ HJ'), stream_cons. cbn [app event_messages]. now rewrite EU. }
  exists m, s5, flows. split; [exact HC|]. split.
  { intros u. unfold s5, s4. cbn. destruct (Nat.eq_dec u t) as [->|Hu]; [now lk|]. lk. rewrite ET3. unfold s2. cbn. lk.
    rewrite HX1 by exact Hu. unfold s0. cbn. lk. apply HQ. }
  split; [exact ELog|]. split; [exact HF1|]. split; [exact EBuf|]. split; [reflexivity|]. split.
  - intros x h' s'' Hx Hrun HN.
    assert (HNs : NoDup (stream decode (arrivals h))).
    { rewrite arrivals_app, stream_app in HN. revert HN. clear. generalize (stream decode (arrivals h')). induction (stream decode (arrivals h)) as [|y l IH]; intros b HN; [constructor|].
      cbn in HN. inversion HN; subst. constructor; [|eauto]. intros Hy. apply H1. apply in_or_app. now left. }
    destruct (run_nodup _ _ _ _ HR HNs) as [HN1 HI1]. rewrite EOld in HN1, HI1.
    assert (EA : arrivals (Start t (NextBatch n) :: repeat (Step t) m) = []).
    { change (arrivals (Start t (NextBatch n) :: repeat (Step t) m)) with (arrivals (repeat (Step t) m)). clear. induction m; [reflexivity|exact IHm]. }
    apply (gone_is_gone decode permits (h ++ Start t (NextBatch n) :: repeat (Step t) m) s5 h' s'' x).
    + unfold reaches in *. rewrite crun_app, HR. exact HC.
    + exact Hrun.
    + rewrite !arrivals_app, EA, app_nil_r. now rewrite arrivals_app in HN.
    + rewrite arrivals_app, EA, app_nil_r. apply HI1. apply in_or_app. right. apply in_or_app. right. apply in_or_app. left.
      unfold lost in Hx. rewrite <- (firstn_skipn (length ms - room) ms). apply in_or_app. now left.
    + rewrite EPend, ERet. intros Hin.
      unfold lost in Hx. set (k := (length ms - room)%nat) in *. unfold out in Hin.
      assert (HP : Permutation (returned (c_log s) ++ c_buf s ++ ms ++ stream decode q)
                     (firstn k ms ++ ((returned (c_log s) ++ (rev (c_buf s) ++ rev (skipn k ms))) ++ stream decode q))).
      { rewrite <- (firstn_skipn k ms) at 1. rewrite <- !app_assoc.
        transitivity (returned (c_log s) ++ firstn k ms ++ rev (c_buf s) ++ rev (skipn k ms) ++ stream decode q).
        - apply Permutation_app_head. rewrite !app_assoc. apply Permutation_app_tail.
          rewrite <- !app_assoc. transitivity (firstn k ms ++ c_buf s ++ skipn k ms).
          + rewrite !app_assoc. apply Permutation_app_tail. apply Permutation_app_comm.
          + apply Permutation_app_head. apply Permutation_app; apply Permutation_rev.
        - rewrite !app_assoc. do 3 apply Permutation_app_tail. apply Permutation_app_comm. }
      apply (Permutation_NoDup HP) in HN1. revert HN1 Hx Hin. clear.
      generalize ((returned (c_log s) ++ (rev (c_buf s) ++ rev (skipn k ms))) ++ stream decode q) as b. generalize (firstn k ms) as a. intros a b.
      induction a as [|y a IH]; cbn; [tauto|]. intros HN [->|Hx] Hin; inversion HN; subst; [apply H1; apply in_or_app; now right|auto].
  - rewrite EPend, ERet, EOld. unfold out. split.
    + intros HP. apply Permutation_length in HP. rewrite !app_length, !rev_length, skipn_length in HP. lia.
    + intros HF. replace (length ms - room)%nat with O by lia. cbn [skipn]. rewrite <- !app_assoc. apply Permutation_app_head.
      apply Permutation_app; [symmetry; apply Permutation_rev|]. apply Permutation_app_tail. symmetry. apply Permutation_rev.
Qed.

(** * C31 *)
(** Every call that waits can be dropped ... *)
Theorem C31_waiting_calls_can_be_dropped : forall T (decode : bytes -> option T) s t,
  waiting decode t s -> exists s', cstep decode s (Drop t) = Some s'.
Proof.
  intros T decode s t [HT HW]. cbn in *. destruct (c_tasks s t) as [p|]; [|contradiction]. destruct p as [k|k c|k|k|k taken|k out]; cbn in *; try discriminate; eauto.
  destruct (c_open s); discriminate.
Qed.
(** ... a dropped next_message call loses nothing, whatever other calls are under way ... *)
Theorem C31_dropped_next_message_loses_nothing : forall T (decode : bytes -> option T) permits h s t p s',
  reaches decode permits h s -> c_tasks s t = Some p -> pc_kind p = NextMessage -> cstep decode s (Drop t) = Some s' ->
  c_log s' = c_log s /\ pending decode s' = pending decode s.
Proof.
  intros T decode permits h s t p s' HR HT HK HS.
  pose proof (run_lock decode h _ _ (init_lock permits) HR) as HL.
  assert (HE : forall t taken, c_tasks s t = Some (AtRecv NextMessage taken) -> taken = []).
  { clear -HR. revert h s HR. unfold reaches.
    apply (crun_ind decode (fun h s => forall t taken, c_tasks s t = Some (AtRecv NextMessage taken) -> taken = [])); [discriminate|].
    intros h s e s' _ IH HS.
    assert (HT : forall t q, match q with Some (AtRecv NextMessage l) => l = [] | _ => True end ->
       forall u l, set_task (c_tasks s) t q u = Some (AtRecv NextMessage l) -> l = []).
    { intros t q Hq u l Hu. destruct (Nat.eq_dec u t) as [->|NE]; lk; [subst q; exact Hq|eauto]. }
    destruct e as [u k'|u|u|i|]; cbn in HS.
    + destruct (c_tasks s u); inversion HS; subst. apply HT. exact I.
    + destruct (c_tasks s u) as [p|] eqn:ET; [|discriminate]. destruct p as [k'|k' c|k'|k'|k' taken|k' out]; cbn in HS.
      * inversion HS; subst. apply HT. destruct (_ <=? _); exact I.
      * destruct (c_open s); inversion HS; subst; apply HT; exact I.
      * inversion HS; subst. apply HT. exact I.
      * destruct k' as [|n]; (destruct (c_lock s); [discriminate|]); [destruct (c_buf s)|]; inversion HS; subst; apply HT; try exact I; try reflexivity.
        destruct (_ =? _)%nat; exact I.
      * destruct (c_queue s) as [|i q]; [destruct (c_open s); inversion HS; subst; apply HT; exact I|].
        destruct i; try (inversion HS; subst; exact IH).
        destruct (unpack decode d) as [ms|er|]; [destruct k' as [|n]; [destruct ms|]|..]; inversion HS; subst; apply HT; exact I.
      * inversion HS; subst. apply HT. exact I.
    + destruct (c_tasks s u) as [p|]; [|discriminate]. destruct p; inversion HS; subst; apply HT; exact I.
    + destruct (c_open s); inversion HS; subst. exact IH.
    + inversion HS; subst. exact IH. }
  cbn in HS. rewrite HT in HS. destruct p as [k|k c|k|k|k taken|k out]; cbn in HK; subst k; inversion HS; subst; (split; [reflexivity|]); unfold pending.
  - f_equal. oh.
  - f_equal. oh.
  - rewrite (my_hand s t _ HL HT eq_refl). cbn. now rewrite (HE _ _ HT).
Qed.
(** ... and a dropped next_batch call loses every message it had taken: none of
    them is returned by any later call. *)
Lemma taken_gone {T} (decode : bytes -> option T) permits h s t k taken s' e x h' s'' :
  reaches decode permits h s -> c_tasks s t = Some (AtRecv k taken) -> cstep decode s e = Some s' -> arr1 e = [] ->
  returned (c_log s') = returned (c_log s) -> c_lock s' = None -> c_buf s' = c_buf s ->
  incl (stream decode (c_queue s')) (stream decode (c_queue s)) ->
  In x taken -> crun decode s' h' = Some s'' -> NoDup (stream decode (arrivals (h ++ h'))) -> ~ In x (returned (c_log s'')).
Proof.
  intros HR HT HS HE EL ELk EB HQ Hx HC HN. pose proof (run_lock decode h _ _ (init_lock permits) HR) as HL.
  assert (EA : arrivals (h ++ [e]) = arrivals h) by (rewrite arrivals_app; change (arrivals [e]) with (arr1 e ++ []); rewrite HE; apply app_nil_r).
  assert (HNs : NoDup (stream decode (arrivals h))).
  { rewrite arrivals_app, stream_app in HN. revert HN. clear. generalize (stream decode (arrivals h')). induction (stream decode (arrivals h)) as [|y l IH]; intros b HN; [constructor|].
    cbn in HN. inversion HN; subst. constructor; [|eauto]. intros Hy. apply H1. apply in_or_app. now left. }
  destruct (run_nodup _ _ _ _ HR HNs) as [HN1 HI1]. unfold pending in HN1, HI1. rewrite (my_hand s t _ HL HT eq_refl) in HN1, HI1. cbn [pc_hand] in HN1, HI1.
  apply (gone_is_gone decode permits (h ++ [e]) s' h' s'' x).
  - unfold reaches in *. rewrite crun_app, HR. cbn. now rewrite HS.
  - exact HC.
  - rewrite arrivals_app, EA. now rewrite arrivals_app in HN.
  - rewrite EA. apply HI1. apply in_or_app. right. apply in_or_app. now left.
  - unfold pending. rewrite (free_hand s' ELk), EL, EB. cbn [app]. intros Hin.
    assert (HP : Permutation (returned (c_log s) ++ taken ++ c_buf s ++ stream decode (c_queue s))
                  (taken ++ returned (c_log s) ++ c_buf s ++ stream decode (c_queue s))).
    { rewrite !app_assoc. do 2 apply Permutation_app_tail. apply Permutation_app_comm. }
    apply (Permutation_NoDup HP) in HN1.
    assert (Hin2 : In x (returned (c_log s) ++ c_buf s ++ stream decode (c_queue s))).
    { apply in_app_or in Hin. destruct Hin as [Hin|Hin]; [apply in_or_app; now left|]. apply in_or_app. right.
      apply in_app_or in Hin. destruct Hin as [Hin|Hin]; [apply in_or_app; now left|]. apply in_or_app. right. auto. }
    revert HN1 Hx Hin2. clear. generalize (returned (c_log s) ++ c_buf s ++ stream decode (c_queue s)) as b. intros b.
    induction taken as [|y a IH]; cbn; [tauto|]. intros HN [->|Hx] Hin; inversion HN; subst; [apply H1; apply in_or_app; now right|auto].
Qed.
Theorem C31_dropped_next_batch_loses_taken : forall T (decode : bytes -> option T) permits h s t n taken s' x h' s'',
  reaches decode permits h s -> c_tasks s t = Some (AtRecv (NextBatch n) taken) -> cstep decode s (Drop t) = Some s' ->
  In x taken -> crun decode s' h' = Some s'' -> NoDup (stream decode (arrivals (h ++ h'))) -> ~ In x (returned (c_log s'')).
Proof.
  intros T decode permits h s t n taken s' x h' s'' HR HT HS. pose proof HS as HS2. cbn in HS2. rewrite HT in HS2. inversion HS2; subst.
  eapply taken_gone; try eassumption; try reflexivity. apply incl_refl.
Qed.
(** So does one that returns an error (or panics). *)
Theorem C31_failed_next_batch_loses_taken : forall T (decode : bytes -> option T) permits h s t n taken s' r x h' s'',
  reaches decode permits h s -> c_tasks s t = Some (AtRecv (NextBatch n) taken) -> cstep decode s (Step t) = Some s' ->
  c_log s' = c_log s ++ [Returned t (NextBatch n) r] -> (forall ms, r <> Ok ms) ->
  In x taken -> crun decode s' h' = Some s'' -> NoDup (stream decode (arrivals (h ++ h'))) -> ~ In x (returned (c_log s'')).
Proof.
  intros T decode permits h s t n taken s' r x h' s'' HR HT HS EL Hr.
  assert (ER : returned (c_log s') = returned (c_log s)).
  { rewrite EL. apply ret_nil. destruct r; try exact I. now destruct (Hr a). }
  pose proof HS as HS2. cbn in HS2. rewrite HT in HS2. cbn [call_step] in HS2.
  assert (Len : forall l : list (cobs T), l = l ++ [Returned t (NextBatch n) r] -> False).
  { intros l E. apply (f_equal (@length _)) in E. rewrite app_length in E. cbn in E. lia. }
  destruct (c_queue s) as [|i q] eqn:EQ.
  - destruct (c_open s); [discriminate|]. inversion HS2; subst s'. eapply taken_gone; try eassumption; try reflexivity. cbn. rewrite EQ. apply incl_refl.
  - destruct i; try (inversion HS2; subst s'; cbn in EL; destruct (Len _ EL)).
    assert (HI : incl (stream decode q) (stream decode (c_queue s))) by (rewrite EQ, stream_cons; intros y Hy; apply in_or_app; now right).
    destruct (unpack decode d) as [ms|er|]; inversion HS2; subst s'; try (cbn in EL; destruct (Len _ EL)); eapply taken_gone; try eassumption; try reflexivity.
Qed.
(** * Concrete cases meeting the hypotheses *)
Definition ex_mid (e : Z) : message := [(1, PInt 7); (2, PInt e)].
Definition ex_single (e : Z) (d : bytes) : inbound := InMessage (DSingle 1 (ex_mid e) d).
Definition ex_batch (e : Z) (ds : list bytes) : inbound := InMessage (DBatch 1 (ex_mid e) (map (fun d => mk_batched [] d) ds)).
Definition ex_decode (b : bytes) : option bytes := if bytes_eqb b (str "bad") then None else Some b.
Definition ex_view (o : option (cons bytes)) : option (list bytes * list bytes * list N) :=
  option_map (fun s => (map cm_payload (returned (c_log s)), map cm_payload (pending ex_decode s), grants (c_log s))) o.
Definition ex_call (t : nat) (k : ckind) (n : nat) : list cev := Start t k :: repeat (Step t) n.

(** C17: a batch of three, the last message's acknowledgement. *)
Example ex_C17 : match unpack ex_decode (DBatch 1 (ex_mid 9) (map (fun d => mk_batched [] d) [str "a"; str "b"; str "c"])) with
  | Ok [_; _; m] => get_z 1 (cm_ack m) = Some 7%Z /\ get_z 2 (cm_ack m) = Some 9%Z /\ get_z 4 (cm_ack m) = Some 2%Z
  | _ => False end.
Proof. cbn. auto. Qed.
Example ex_mid_ok : mid_ok (ex_mid 9).
Proof. split; reflexivity. Qed.
(** C25: two concurrent next_message calls, one of them dropped while waiting. *)
Definition ex_h25 : list cev :=
  [Start 0 NextMessage; Step 0; Step 0; Start 1 NextMessage; Step 1; Arrive InPong; Drop 0; Step 1; Step 1;
   Arrive (ex_batch 3 [str "a"; str "b"; str "c"]); Step 1; Step 1; Arrive (ex_single 4 (str "d")); Start 0 NextMessage; Step 0; Step 0]%nat.
Example ex_C25 : ex_view (crun ex_decode (cons_init 250) ex_h25) = Some ([str "a"; str "b"], [str "c"; str "d"], []).
Proof. vm_compute. reflexivity. Qed.
Example ex_C25_only : only_next_message ex_h25.
Proof. intros t k H. repeat (destruct H as [H|H]; [inversion H; reflexivity || discriminate|]). destruct H. Qed.
(** C26: entries a connection can deliver. *)
Example ex_received_single : received (ex_single 4 (str "d")).
Proof. exists (mk_cmd (base 9 9 [(1, PInt 1); (2, PMsg (ex_mid 4))]) (Some (mk_payload [(1, PBytes []); (2, PInt 0); (3, PInt 0)] (str "d")))). reflexivity. Qed.
Example ex_received_batch : exists parts, received (InMessage (DBatch 1 (ex_mid 4) parts)) /\ map bp_data parts = [str "a"; str "bad"].
Proof.
  eexists. split.
  - exists (mk_cmd (base 9 9 [(1, PInt 1); (2, PMsg (ex_mid 4))]) (Some (mk_payload [(1, PBytes []); (2, PInt 0); (3, PInt 0); (11, PInt 2)]
      (batch_part (str "a") ++ batch_part (str "bad"))))). vm_compute. reflexivity.
  - reflexivity.
Qed.
Example ex_C26_panics : option_map (fun s => c_log s) (crun ex_decode (cons_init 250)
    (Arrive (ex_batch 3 [str "a"; str "bad"]) :: ex_call 0 NextMessage 3)) = Some [Returned 0%nat NextMessage Panic].
Proof. vm_compute. reflexivity. Qed.
Example ex_C26_fails : option_map (fun s => c_log s) (crun ex_decode (cons_init 250)
    (Arrive (ex_single 3 (str "bad")) :: ex_call 0 NextMessage 3)) = Some [Returned 0%nat NextMessage (Err DeserializationFailed)].
Proof. vm_compute. reflexivity. Qed.
(** C27: one message buffered, room for one of three: "c" and "d" are lost. *)
Definition ex_h27 : list cev :=
  Arrive (ex_batch 3 [str "a"; str "b"]) :: ex_call 0 NextMessage 4 ++ [Arrive InPong; Arrive (ex_batch 4 [str "c"; str "d"; str "e"])].
Example ex_C27_before : ex_view (crun ex_decode (cons_init 250) ex_h27) = Some ([str "a"], [str "b"; str "c"; str "d"; str "e"], []).
Proof. vm_compute. reflexivity. Qed.
Example ex_C27_after : ex_view (crun ex_decode (cons_init 250) (ex_h27 ++ ex_call 0 (NextBatch 2) 5)) = Some ([str "a"; str "b"; str "e"], [], []).
Proof. vm_compute. reflexivity. Qed.
Example ex_C27_nodup : NoDup (stream ex_decode (arrivals ex_h27)).
Proof.
  repeat constructor; cbn; intros H; repeat (destruct H as [H|H]; [inversion H|]); exact H.
Qed.
(** C31: a next_batch call dropped while it waits had taken "b". *)
Definition ex_h31 : list cev :=
  Arrive (ex_batch 3 [str "a"; str "b"]) :: ex_call 0 NextMessage 4 ++ ex_call 1 (NextBatch 2) 2.
Example ex_C31_before : match crun ex_decode (cons_init 250) ex_h31 with
  | Some s => exists m, c_tasks s 1%nat = Some (AtRecv (NextBatch 2) [m]) /\ cm_payload m = str "b" /\ waiting ex_decode 1 s | None => False end.
Proof. vm_compute. eexists. split; [reflexivity|]. split; [reflexivity|]. split; [discriminate|reflexivity]. Qed.
Example ex_C31_after : ex_view (crun ex_decode (cons_init 250) (ex_h31 ++ [Drop 1%nat])) = Some ([str "a"], [], []).
Proof. vm_compute. reflexivity. Qed.

Print Assumptions C17_unpack_iff.
Print Assumptions C17_batch_ack_ids.
Print Assumptions C17_batch_acks_distinct.
Print Assumptions C17_parsed_batches_small.
Print Assumptions C17_ack_is_sendable.
Print Assumptions C16_single_ack.
Print Assumptions C25_exactly_once_in_order.
Print Assumptions C25_one_message_per_call.
Print Assumptions C25_next_call_returns_next.
Print Assumptions C26_entry_sizes.
Print Assumptions C26_panic_only_from_undecodable_batch.
Print Assumptions C26_undecodable_batch_panics.
Print Assumptions C26_undecodable_single_fails.
Print Assumptions C27_at_most_n.
Print Assumptions C27_from_buffer.
Print Assumptions C27_from_buffer_and_entry.
Print Assumptions C31_waiting_calls_can_be_dropped.
Print Assumptions C31_dropped_next_message_loses_nothing.
Print Assumptions C31_dropped_next_batch_loses_taken.
Print Assumptions C31_failed_next_batch_loses_taken.
