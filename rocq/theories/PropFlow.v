(** C28, C29, C30: flow permits. *)
From Verif Require Import Bytes Errors Wire Utf8 Proto ProtoFacts Codec Message SpecProto SpecMessage MessageFacts InboundFacts
  Consumer SpecConsumer ConsumerFacts ConsumerRuns PropConsumer FlowFacts.
Open Scope N_scope.

Lemma queue_in {T} (decode : bytes -> option T) P h1 s1 : crun decode (cons_init P) h1 = Some s1 -> incl (c_queue s1) (arrivals h1).
Proof. apply queue_arrived. Qed.

Lemma crun_cons {T} (decode : bytes -> option T) s e s1 r s' : cstep decode s e = Some s1 -> crun decode s1 r = Some s' -> crun decode s (e :: r) = Some s'.
Proof. intros H K. cbn [crun]. now rewrite H. Qed.

(** * C30 *)
(** As long as calls do not overlap, and the consumer is read either from
    unbatched entries or with next_batch only, every flow command grants the
    window plus exactly the messages returned since the one before, ... *)
Theorem C30_exact_without_overlap : forall T (decode : bytes -> option T) P h s,
  0 < P < 2 ^ 30 -> (forall t n, In (Start t (NextBatch n)) h -> N.of_nat n < 2 ^ 30) ->
  one_at_a_time decode P h -> (forall i, In i (arrivals h) -> single_event i) \/ only_next_batch h ->
  reaches decode P h s -> flows_exact P 0 (c_log s).
Proof.
  intros T decode P h s HP HN HO HPl HR. change (2 ^ 30) with 1073741824 in *.
  assert (HI : seq_inv P 1073741824 s).
  { apply (seq_run decode P 1073741824 h s); try assumption; try lia; [unfold u32_max; lia| |apply queue_in].
    intros t [|n] Hk; cbn [kmax]; [lia|]. specialize (HN _ _ Hk). lia. }
  now destruct HI as (_ & _ & HX & _).
Qed.
(** ... and no call waits for an event while a full window of returned messages
    has not been made good. *)
Theorem C30_refilled_before_waiting : forall T (decode : bytes -> option T) P h s t,
  0 < P < 2 ^ 30 -> (forall t n, In (Start t (NextBatch n)) h -> N.of_nat n < 2 ^ 30) ->
  one_at_a_time decode P h -> (forall i, In i (arrivals h) -> single_event i) \/ only_next_batch h ->
  reaches decode P h s -> waiting decode t s -> since_flow 0 (c_log s) < P.
Proof.
  intros T decode P h s t HP HN HO HPl HR [HW1 HW2]. change (2 ^ 30) with 1073741824 in *.
  assert (HI : seq_inv P 1073741824 s).
  { apply (seq_run decode P 1073741824 h s); try assumption; try lia; [unfold u32_max; lia| |apply queue_in].
    intros u [|n] Hk; cbn [kmax]; [lia|]. specialize (HN _ _ Hk). lia. }
  destruct (c_tasks s t) as [p|] eqn:ET; [|contradiction]. destruct (seq_at _ _ _ _ _ HI ET) as [_ [_ HPc]].
  cbn in HW2. rewrite ET in HW2. destruct p as [k|k c|k|k|k taken|k out]; cbn in HW2, HPc; try discriminate.
  - destruct (c_open s); discriminate.
  - lia.
  - lia.
Qed.

(** Reading single messages one at a time: an explicit run. *)
Definition serve (i : inbound) : list cev := [Arrive i; Start 0 NextMessage; Step 0; Step 0; Step 0; Step 0]%nat.
Definition idle {T} (P k : N) (s : cons T) : Prop :=
  quiet s /\ c_permits s = P /\ c_counter s = k /\ c_buf s = [] /\ c_lock s = None /\ c_queue s = [] /\ c_open s = true.
Lemma idle_init {T} P : @idle T P 0 (cons_init P).
Proof. unfold idle, quiet. cbn. auto 10. Qed.
Lemma serve_one {T} (decode : bytes -> option T) P k s c mid data v : idle P k s -> k < P -> k + 1 < u32_max -> decode data = Some v ->
  exists s', crun decode s (serve (InMessage (DSingle c mid data))) = Some s' /\ idle P (k + 1) s' /\
    c_log s' = c_log s ++ [Returned 0%nat NextMessage (Ok [mk_cmsg v mid])].
Proof.
  intros (HQ & EP & EC & EB & EL & EQ & EO) HK HU HD. destruct s as [sp sc sb sl sq so st sg]. cbn in EP, EC, EB, EL, EQ, EO. subst.
  assert (HLe : (P <=? k) = false) by (apply N.leb_gt; lia). unfold serve.
  eexists. split.
  { eapply crun_cons; [cbn [cstep c_open]; reflexivity|]. assert (HQ0 : st O = None) by exact (HQ O).
  eapply crun_cons; [cbn [cstep with_queue c_tasks]; rewrite HQ0; reflexivity|].
  eapply crun_cons; [cbn [cstep with_queue goto c_tasks]; lk; cbn [call_step c_permits c_counter with_queue goto]; rewrite HLe; reflexivity|].
  eapply crun_cons; [cbn [cstep with_queue goto c_tasks]; lk; cbn [call_step with_queue goto c_lock c_buf]; reflexivity|].
  eapply crun_cons; [cbn [cstep with_queue goto with_lock c_tasks]; lk; cbn [call_step with_queue goto with_lock c_queue c_buf app unpack]; rewrite HD; reflexivity|].
  eapply crun_cons; [cbn [cstep with_queue goto with_lock with_buf c_tasks]; lk; cbn [call_step]; reflexivity|].
    reflexivity. }
  split; [|reflexivity].
  unfold idle. cbn. split; [|rewrite N.mod_small by exact HU; auto 10].
  intros u. cbn. destruct (Nat.eq_dec u 0%nat) as [->|NE]; lk; [reflexivity|]. exact (HQ u).
Qed.
Fixpoint serve_all (n : nat) (i : inbound) : list cev := match n with O => [] | S n => serve_all n i ++ serve i end.
Lemma serve_many {T} (decode : bytes -> option T) P c mid data v n : decode data = Some v -> N.of_nat n <= P -> P < u32_max ->
  exists s, crun decode (cons_init P) (serve_all n (InMessage (DSingle c mid data))) = Some s /\ idle P (N.of_nat n) s /\
    grants (c_log s) = [] /\ length (returned (c_log s)) = n /\ since_flow 0 (c_log s) = N.of_nat n.
Proof.
  intros HD HN HP. induction n as [|n IH].
  - eexists. split; [reflexivity|]. split; [apply idle_init|]. repeat split.
  - destruct IH as (s & HR & HI & HG & HL & HF); [lia|].
    destruct (serve_one decode P (N.of_nat n) s c mid data v HI) as (s' & HR' & HI' & HL'); [lia|lia|exact HD|].
    exists s'. cbn [serve_all]. rewrite crun_app, HR. split; [exact HR'|]. split; [replace (N.of_nat (S n)) with (N.of_nat n + 1) by lia; exact HI'|].
    rewrite HL', grants_snoc, ret_snoc, since_app, HG, app_length, HL, HF. cbn. split; [reflexivity|]. split; lia.
Qed.
Lemma serve_all_next_message n i : only_next_message (serve_all n i).
Proof.
  induction n as [|n IH]; intros t k H; [destruct H|]. cbn [serve_all] in H. apply in_app_or in H. destruct H as [H|H]; [now apply (IH t)|].
  unfold serve in H. repeat (destruct H as [H|H]; [inversion H; reflexivity || discriminate|]). destruct H.
Qed.

(** With overlapping calls, two calls can both see the window used up, and both
    grant it: from every state in which the counter has reached the window. *)
Theorem C30_double_grant_everywhere : forall T (decode : bytes -> option T) s t u,
  c_open s = true -> c_permits s <= c_counter s -> t <> u -> c_tasks s t = None -> c_tasks s u = None ->
  exists s', crun decode s [Start t NextMessage; Start u NextMessage; Step t; Step u; Step t; Step u] = Some s' /\
    let g := (c_permits s * 2 + (c_counter s - c_permits s)) mod 2 ^ 32 in
    c_log s' = c_log s ++ [Flowed g; Flowed g].
Proof.
  intros T decode s t u EO HC NE HT HU. assert (NE2 : u <> t) by congruence.
  assert (E1 : cstep decode s (Start t NextMessage) = Some (goto s t (AtCheck NextMessage))) by (cbn [cstep]; now rewrite HT).
  set (s1 := goto s t (AtCheck NextMessage)) in *.
  assert (E2 : cstep decode s1 (Start u NextMessage) = Some (goto s1 u (AtCheck NextMessage))).
  { cbn [cstep]. unfold s1 at 1. cbn [goto c_tasks]. lk. now rewrite HU. }
  set (s2 := goto s1 u (AtCheck NextMessage)) in *.
  assert (E3 : cstep decode s2 (Step t) = Some (goto s2 t (AtFlow NextMessage (c_counter s)))).
  { cbn [cstep]. unfold s2 at 1, s1. cbn [goto c_tasks]. lk. cbn [call_step]. unfold s2 at 2 3, s1 at 1 2. cbn [goto c_permits c_counter].
    destruct (N.leb_spec (c_permits s) (c_counter s)); [reflexivity|lia]. }
  set (s3 := goto s2 t (AtFlow NextMessage (c_counter s))) in *.
  assert (E4 : cstep decode s3 (Step u) = Some (goto s3 u (AtFlow NextMessage (c_counter s)))).
  { cbn [cstep]. unfold s3 at 1, s2. cbn [goto c_tasks]. lk. cbn [call_step]. unfold s3 at 2 3, s2 at 1 2, s1 at 1 2. cbn [goto c_permits c_counter].
    destruct (N.leb_spec (c_permits s) (c_counter s)); [reflexivity|lia]. }
  set (s4 := goto s3 u (AtFlow NextMessage (c_counter s))) in *.
  set (g := (c_permits s * 2 + (c_counter s - c_permits s)) mod u32_max).
  assert (E5 : cstep decode s4 (Step t) = Some (goto (with_log s4 (Flowed g)) t (AtStore NextMessage))).
  { cbn [cstep]. unfold s4 at 1, s3. cbn [goto c_tasks]. lk. cbn [call_step]. change (c_open s4) with (c_open s). rewrite EO. reflexivity. }
  set (s5 := goto (with_log s4 (Flowed g)) t (AtStore NextMessage)) in *.
  assert (E6 : cstep decode s5 (Step u) = Some (goto (with_log s5 (Flowed g)) u (AtStore NextMessage))).
  { cbn [cstep]. unfold s5 at 1, s4. cbn [goto with_log c_tasks]. lk. cbn [call_step]. change (c_open s5) with (c_open s). rewrite EO. reflexivity. }
  eexists. split; [do 6 (eapply crun_cons; [eassumption|]); reflexivity|]. cbn. now rewrite <- app_assoc.
Qed.
(** Such states are reached: for every window there is a schedule of next_message
    calls on single messages in which the same window is granted twice. *)
Theorem C30_double_grant_reached : forall T (decode : bytes -> option T) P (mid : message) data v,
  0 < P -> 2 * P < 2 ^ 32 -> decode data = Some v ->
  exists h s, only_next_message h /\ (forall i, In i (arrivals h) -> single_event i) /\ reaches decode P h s /\
    N.of_nat (length (returned (c_log s))) = P /\ grants (c_log s) = [2 * P; 2 * P] /\ ~ flows_exact P 0 (c_log s).
Proof.
  intros T decode P mid data v HP HB HD. change (2 ^ 32) with u32_max in HB.
  destruct (serve_many decode P 1 mid data v (N.to_nat P) HD) as (s & HR & (HQ & EP & EC & EB & EL & EQ & EO) & HG & HL & HF); [lia|lia|].
  rewrite N2Nat.id in *.
  set (h2 := [Start 1 NextMessage; Start 2 NextMessage; Step 1; Step 2; Step 1; Step 2]%nat).
  destruct (C30_double_grant_everywhere T decode s 1%nat 2%nat EO) as (s' & HR' & HG'); [lia|discriminate|apply HQ|apply HQ|].
  fold h2 in HR'.
  exists (serve_all (N.to_nat P) (InMessage (DSingle 1 mid data)) ++ h2), s'.
  assert (HRR : reaches decode P (serve_all (N.to_nat P) (InMessage (DSingle 1 mid data)) ++ h2) s')
    by (unfold reaches; rewrite crun_app, HR; exact HR').
  cbn zeta in HG'. rewrite EP, EC in HG'. change (2 ^ 32) with u32_max in HG'.
  replace ((P * 2 + (P - P)) mod u32_max) with (2 * P) in HG' by (rewrite N.mod_small by lia; lia).
  split; [|split; [|split; [exact HRR|]]].
  - intros t k Hk. apply in_app_or in Hk. destruct Hk as [Hk|Hk]; [exact (serve_all_next_message _ _ t k Hk)|].
    unfold h2 in Hk. repeat (destruct Hk as [Hk|Hk]; [inversion Hk; reflexivity || discriminate|]). destruct Hk.
  - intros i Hi. rewrite arrivals_app in Hi. apply in_app_or in Hi. destruct Hi as [Hi|[]].
    assert (HA : forall n, In i (arrivals (serve_all n (InMessage (DSingle 1 mid data)))) -> i = InMessage (DSingle 1 mid data)).
    { induction n as [|n IH]; [intros []|]. cbn [serve_all]. rewrite arrivals_app. intros H. apply in_app_or in H. destruct H as [H|H]; [auto|].
      cbn in H. destruct H as [<-|[]]. reflexivity. }
    rewrite (HA _ Hi). intros d E. inversion E; subst. eauto.
  - rewrite HG', returned_app, app_length, HL. replace (returned [Flowed (2 * P); Flowed (2 * P)]) with (@nil (cmsg T)) by reflexivity. cbn [length]. split; [lia|].
    rewrite grants_app, HG. split; [reflexivity|]. intros HX.
    replace (c_log s ++ [Flowed (2 * P); Flowed (2 * P)]) with ((c_log s ++ [Flowed (2 * P)]) ++ [Flowed (2 * P)]) in HX by now rewrite <- app_assoc.
    apply exact_app in HX. destruct HX as [_ HX]. rewrite since_app in HX. lia.
Qed.

(** With overlapping calls a delivery can also be left uncounted for good: a
    call that returns between another call's flow command and its counter reset
    is forgotten. Here one message was returned after the flow command, and the
    counter says zero. *)
Ltac red1 := cbn [cstep with_queue with_lock with_buf with_counter with_log goto finish c_tasks c_open c_permits c_counter c_buf c_lock c_queue c_log call_step app unpack].
Ltac upd := repeat first [rewrite set_task_same | rewrite set_task_other by discriminate].
Lemma crun_ex {T} (decode : bytes -> option T) s e s1 r (Q : cons T -> Prop) : cstep decode s e = Some s1 ->
  (exists s', crun decode s1 r = Some s' /\ Q s') -> exists s', crun decode s (e :: r) = Some s' /\ Q s'.
Proof. intros H (s' & K & HQ). exists s'. split; [eapply crun_cons; eassumption|exact HQ]. Qed.
(** One event; the new task table is replaced by a variable. *)
Ltac known f n g := let E := fresh "K" in
  eassert (E : g n = _) by (first [apply set_task_same | rewrite set_task_other by discriminate; eassumption]).
Ltac look := repeat match goal with H : ?f ?n = _ |- context [?f ?n] => is_var f; rewrite H end.
Ltac nxt tac := eapply crun_ex; [red1; look; red1; tac; reflexivity|]; unfold goto, with_queue, with_lock, with_buf, with_counter, with_log, finish; red1;
  try (match goal with
  | |- context [set_task ?f ?t ?p] =>
      known f 1%nat (set_task f t p); known f 2%nat (set_task f t p); known f 3%nat (set_task f t p);
      repeat match goal with H : f _ = _ |- _ => clear H end;
      generalize dependent (set_task f t p); let g := fresh "g" in intros g; intros
  end).
Theorem C30_lost_count_reached : forall T (decode : bytes -> option T) P (mid : message) data v,
  0 < P -> 2 * P < 2 ^ 32 -> decode data = Some v ->
  exists h s, only_next_message h /\ (forall i, In i (arrivals h) -> single_event i) /\ reaches decode P h s /\
    grants (c_log s) = [2 * P] /\ since_flow 0 (c_log s) = 1 /\ c_counter s = 0 /\ entries h = P + 1.
Proof.
  intros T decode P mid data v HP HB HD. change (2 ^ 32) with u32_max in HB.
  set (i0 := InMessage (DSingle 1 mid data)).
  destruct (serve_many decode P 1 mid data v (N.to_nat (P - 1)) HD) as (s & HR & (HQ & EP & EC & EB & EL & EQ & EO) & HG & HL & HF); [lia|lia|].
  rewrite N2Nat.id in *. fold i0 in HR.
  (* call 1 passes the check and waits for the lock; call 2 takes a message; call 3 flows; call 1 takes one; call 3 resets *)
  set (h2 := [Arrive i0; Arrive i0; Start 1 NextMessage; Step 1; Start 2 NextMessage; Step 2; Step 2; Step 2; Step 2;
              Start 3 NextMessage; Step 3; Step 3; Step 1; Step 1; Step 1; Step 3]%nat).
  destruct s as [sp sc sb sl sq so st sg]. cbn in EP, EC, EB, EL, EQ, EO. subst.
  assert (H1 : st 1%nat = None) by exact (HQ 1%nat). assert (H2 : st 2%nat = None) by exact (HQ 2%nat). assert (H3 : st 3%nat = None) by exact (HQ 3%nat).
  assert (L1 : (P <=? P - 1) = false) by (apply N.leb_gt; lia).
  assert (M1 : (P - 1 + 1) mod u32_max = P) by (rewrite N.mod_small by lia; lia).
  assert (M2 : (P * 2 + (P - P)) mod u32_max = 2 * P) by (rewrite N.mod_small by lia; lia).
  assert (Hrun : exists s', crun decode (mk_cons P (P - 1) [] None [] true st sg) h2 = Some s' /\
    c_log s' = sg ++ [Returned 2%nat NextMessage (Ok [mk_cmsg v mid]); Flowed (2 * P); Returned 1%nat NextMessage (Ok [mk_cmsg v mid])] /\ c_counter s' = 0).
  { unfold h2. clear HR HQ HG HL HF.
    nxt idtac. nxt idtac. nxt idtac. nxt ltac:(rewrite L1). nxt idtac. nxt ltac:(rewrite L1). nxt idtac.
    nxt ltac:(unfold i0; red1; rewrite HD; red1).
    nxt ltac:(change (N.of_nat (length [mk_cmsg v mid])) with 1; rewrite M1).
    nxt idtac. nxt ltac:(rewrite N.leb_refl). nxt ltac:(rewrite M2). nxt idtac.
    nxt ltac:(unfold i0; red1; rewrite HD; red1). nxt idtac. nxt idtac.
    eexists. split; [reflexivity|]. cbn [c_log c_counter]. split; [now rewrite <- !app_assoc|reflexivity]. }
  destruct Hrun as (s' & Hrun & ELog & ECnt).
  exists (serve_all (N.to_nat (P - 1)) i0 ++ h2), s'. split; [|split; [|split; [|split; [|split; [|split]]]]].
  - intros t k Hk. apply in_app_or in Hk. destruct Hk as [Hk|Hk]; [exact (serve_all_next_message _ _ t k Hk)|].
    unfold h2 in Hk. repeat (destruct Hk as [Hk|Hk]; [inversion Hk; reflexivity || discriminate|]). destruct Hk.
  - assert (HS : single_event i0) by (intros d E; inversion E; subst; eauto).
    intros i Hi. rewrite arrivals_app in Hi. apply in_app_or in Hi. destruct Hi as [Hi|Hi].
    + assert (HA : forall n, In i (arrivals (serve_all n i0)) -> i = i0).
      { induction n as [|n IH]; [intros []|]. cbn [serve_all]. rewrite arrivals_app. intros H. apply in_app_or in H. destruct H as [H|H]; [auto|].
        cbn in H. destruct H as [<-|[]]. reflexivity. }
      now rewrite (HA _ Hi).
    + cbn in Hi. destruct Hi as [<-|[<-|[]]]; exact HS.
  - unfold reaches. rewrite crun_app, HR. exact Hrun.
  - cbn in HG. rewrite ELog, grants_app, HG. reflexivity.
  - rewrite ELog. replace (sg ++ _) with (((sg ++ [Returned 2%nat NextMessage (Ok [mk_cmsg v mid])]) ++ [Flowed (2 * P)]) ++ [Returned 1%nat NextMessage (Ok [mk_cmsg v mid])])
      by now rewrite <- !app_assoc.
    rewrite since_app, since_app. reflexivity.
  - exact ECnt.
  - unfold entries. rewrite arrivals_app, filter_app, app_length.
    assert (HA : forall n, length (filter is_entry (arrivals (serve_all n i0))) = n).
    { induction n as [|n IH]; [reflexivity|]. cbn [serve_all]. rewrite arrivals_app, filter_app, app_length, IH. cbn. lia. }
    rewrite HA. cbn. lia.
Qed.

(** * C28 *)
Lemma delivered_app a b : delivered (a ++ b) = delivered a + delivered b.
Proof. unfold delivered. now rewrite arrivals_app, map_app, total_app. Qed.
Lemma delivered_stream {T} (decode : bytes -> option T) h : (forall i, In i (arrivals h) -> decodes decode i) ->
  delivered h = N.of_nat (length (stream decode (arrivals h))).
Proof.
  unfold delivered. induction (arrivals h) as [|i l IH]; [reflexivity|]. intros HD.
  rewrite stream_cons, app_length. cbn [map]. change (total (?x :: ?y)) with (x + total y). rewrite IH by (intros j Hj; apply HD; now right).
  destruct i; try (cbn [event_messages length]; lia). cbn [event_messages].
  destruct (HD (InMessage d) (or_introl eq_refl) d eq_refl) as [ms EU]. rewrite EU. apply C17_unpack_iff in EU.
  destruct d as [c mid data|c mid parts]; cbn in EU |- *.
  - destruct EU as (v & _ & ->). cbn. lia.
  - destruct EU as [EL _]. rewrite EL. lia.
Qed.
Lemma single_run {T} (decode : bytes -> option T) P h s : 0 < P -> 3 * P < 2 ^ 32 -> only_next_message h -> one_at_a_time decode P h ->
  (forall i, In i (arrivals h) -> single_event i) -> reaches decode P h s -> seq_inv P 1 s /\ rounds P s.
Proof.
  intros HP HB HN HO HS HR. change (2 ^ 32) with u32_max in HB.
  assert (HK : forall h', only_next_message h' -> forall t k, In (Start t k) h' -> N.of_nat (kmax k) <= 1)
    by (intros h' H t k Hk; rewrite (H t k Hk); cbn; lia).
  split.
  { apply (seq_run decode P 1 h s); try assumption; try lia; [now apply HK|now left|apply queue_in]. }
  revert HN HO HS. unfold reaches in HR. revert h s HR.
  apply (crun_ind decode (fun h s => only_next_message h -> one_at_a_time decode P h -> (forall i, In i (arrivals h) -> single_event i) -> rounds P s)).
  - intros _ _ _. exists 0. split; [change (0 = 2 * P * 0)|change (0 = P * 0 + 0)]; lia.
  - intros h s e s' HR IH HS HN HO HA.
    assert (HN' : only_next_message h) by (intros t k Hk; apply (HN t); apply in_or_app; now left).
    assert (HO' : one_at_a_time decode P h) by (apply no_overlap_app in HO; apply HO).
    assert (HA' : forall i, In i (arrivals h) -> single_event i) by (intros i Hi; apply HA; rewrite arrivals_app; apply in_or_app; now left).
    eapply rounds_step; try eassumption; [unfold u32_max in *; lia| |now apply IH].
    apply (seq_run decode P 1 h s); try assumption; try lia; [now apply HK|now left|apply queue_in].
Qed.

(** On unbatched traffic read by non-overlapping next_message calls, the permits
    granted always exceed the messages returned by at least the window, ... *)
Theorem C28_always_a_window_ahead : forall T (decode : bytes -> option T) P h s,
  0 < P -> 3 * P < 2 ^ 32 -> only_next_message h -> one_at_a_time decode P h -> (forall i, In i (arrivals h) -> single_event i) ->
  reaches decode P h s -> N.of_nat (length (returned (c_log s))) + P <= granted P s.
Proof.
  intros T decode P h s HP HB HN HO HS HR. destruct (single_run decode P h s HP HB HN HO HS HR) as [(EP & EB & EX & t & HOn & HPl) (j & HG & HL)].
  unfold granted. rewrite HG, HL. assert (since_flow 0 (c_log s) <= P); [|lia].
  destruct (c_tasks s t) as [[k|k c|k|k|k taken|k out]|]; cbn in HPl; lia.
Qed.
(** ... exactly: a call that waits, having returned everything the broker
    delivered, has granted one double window per full window of deliveries, and
    one more. *)
Theorem C28_permits_when_waiting : forall T (decode : bytes -> option T) P h s t,
  0 < P -> 3 * P < 2 ^ 32 -> only_next_message h -> one_at_a_time decode P h ->
  (forall i, In i (arrivals h) -> single_event i /\ decodes decode i) ->
  reaches decode P h s -> waiting decode t s ->
  granted P s = 2 * P * (delivered h / P + 1) /\ delivered h + P < granted P s /\ 2 * delivered h < granted P s.
Proof.
  intros T decode P h s t HP HB HN HO HA HR HW.
  assert (HS : forall i, In i (arrivals h) -> single_event i) by (intros i Hi; now apply HA).
  destruct (single_run decode P h s HP HB HN HO HS HR) as [HI (j & HG & HL)].
  pose proof (C25_exactly_once_in_order T decode P h s HN HR) as HC.
  rewrite (delivered_stream decode h) by (intros i Hi; now apply HA).
  destruct HW as [HW1 HW2]. destruct (c_tasks s t) as [p|] eqn:ET; [|contradiction].
  destruct (seq_at _ _ _ _ _ HI ET) as [HOn [_ HPl]]. cbn in HW2. rewrite ET in HW2.
  pose proof (run_lock decode h _ _ (init_lock P) HR) as HLk. pose proof HI as (EP & EB & _).
  assert (HE : pending decode s = [] /\ since_flow 0 (c_log s) < P).
  { destruct p as [k|k c|k|k|k taken|k out]; cbn in HW2, HPl; try discriminate.
    - destruct (c_open s); discriminate.
    - (* waiting for the lock: nobody holds it *)
      exfalso. destruct (c_lock s) as [u|] eqn:EL.
      + unfold lock_ok in HLk. rewrite EL in HLk. destruct HLk as [(q & Eq & Hq) _].
        destruct (Nat.eq_dec u t) as [->|NE]; [rewrite ET in Eq; inversion Eq; subst; discriminate|]. rewrite (HOn u NE) in Eq. discriminate.
      + destruct k; [destruct (c_buf s)|]; discriminate.
    - destruct HPl as (-> & _ & HPl). split; [|exact HPl]. destruct (c_queue s) as [|i q] eqn:EQ.
      + unfold pending. rewrite (my_hand s t _ HLk ET eq_refl), EB, EQ. reflexivity.
      + exfalso. destruct i; try discriminate. destruct (unpack decode d) as [ms|er|]; [|discriminate|discriminate]. destruct k; [destruct ms|]; discriminate. }
  destruct HE as [HE HF]. rewrite HE, app_nil_r in HC. rewrite <- HC, HL. unfold granted. rewrite HG.
  replace ((P * j + since_flow 0 (c_log s)) / P) with j; [lia|].
  symmetry. rewrite N.mul_comm. rewrite N.div_add_l by lia. rewrite N.div_small by lia. lia.
Qed.

(** The engine stays there as long as nothing closes it. *)
Lemma stays_open {T} (decode : bytes -> option T) h : forall s s', c_open s = true -> ~ In Close h -> crun decode s h = Some s' -> c_open s' = true.
Proof.
  induction h as [|e h IH]; intros s s' HO HC H; cbn in H; [now inversion H; subst|].
  destruct (cstep decode s e) as [s1|] eqn:ES; [|discriminate]. eapply IH; [|intros K; apply HC; now right|exact H].
  destruct e as [u k|u|u|i|]; cbn in ES.
  - destruct (c_tasks s u); inversion ES; subst; exact HO.
  - destruct (c_tasks s u) as [p|]; [|discriminate]. destruct p as [k|k c|k|k|k taken|k out]; cbn in ES.
    + inversion ES; subst; exact HO.
    + rewrite HO in ES; inversion ES; subst; exact HO.
    + inversion ES; subst; exact HO.
    + destruct k; (destruct (c_lock s); [discriminate|]); [destruct (c_buf s)|]; inversion ES; subst; exact HO.
    + destruct (c_queue s) as [|i q]; [rewrite HO in ES; inversion ES; subst; exact HO|].
      destruct i; try (inversion ES; subst; exact HO).
      destruct (unpack decode d) as [ms|er|]; [destruct k; [destruct ms|]|..]; inversion ES; subst; exact HO.
    + inversion ES; subst; exact HO.
  - destruct (c_tasks s u) as [p|]; [|discriminate]. destruct p; inversion ES; subst; exact HO.
  - rewrite HO in ES; inversion ES; subst; exact HO.
  - destruct HC. now left.
Qed.
Lemma get_u_uint c mid : get_u 1 [(1, uint c); (2, PMsg mid)] = c.
Proof. unfold get_u, uint. cbn. apply N2Z.id. Qed.
Lemma received_single c mid data : c < 2 ^ 64 -> received (InMessage (DSingle c mid data)).
Proof.
  intros Hc. exists (mk_cmd (base 9 9 [(1, uint c); (2, PMsg mid)]) (Some (mk_payload [] data))).
  unfold to_inbound. cbn. now rewrite get_u_uint.
Qed.
Lemma received_batch c mid ds : (2 <= length ds)%nat -> Forall (fun d => blen d < 2147483648) ds ->
  exists parts, received (InMessage (DBatch c mid parts)) /\ map bp_data parts = ds.
Proof.
  intros HL HF. destruct (batch_part_reads ds [] HF) as (l & HB & HD). rewrite app_nil_r in HB. exists l. split; [|exact HD].
  exists (mk_cmd (base 9 9 [(1, uint c); (2, PMsg mid)]) (Some (mk_payload [(11, PInt (Z.of_nat (length ds)))] (concat (map batch_part ds))))).
  apply means_to_inbound.
  replace (DBatch c mid l) with (DBatch (get_u 1 [(1, uint c); (2, PMsg mid)]) mid l) by now rewrite get_u_uint.
  eapply M_batch; [split; [reflexivity|cbn; tauto]|reflexivity|reflexivity|reflexivity|reflexivity|lia|exact HB|].
  rewrite <- HD, map_length. reflexivity.
Qed.

(** Consuming everything that is pending, one call after another. *)
Lemma drain {T} (decode : bytes -> option T) P l : forall h s, reaches decode P h s -> quiet s -> pending decode s = l -> c_open s = true ->
  (forall d, In (InMessage d) (arrivals h) -> received (InMessage d) /\ exists ms, unpack decode d = Ok ms) ->
  exists h' s', crun decode s h' = Some s' /\ quiet s' /\ pending decode s' = [] /\ c_open s' = true /\ arrivals h' = [] /\
    only_next_message h' /\ no_overlap decode s h' /\ ~ In Close h'.
Proof.
  induction l as [|x l IH]; intros h s HR HQ HP HO HD.
  - exists [], s. cbn. split; [reflexivity|]. split; [exact HQ|]. split; [exact HP|]. split; [exact HO|]. split; [reflexivity|].
    split; [intros t k []|]. split; [exact I|tauto].
  - destruct (C25_next_call_returns_next T decode P h s O x l HR HQ HP) as (n & s1 & flows & HC & HQ1 & HL1 & HF1 & HP1);
      [intros d Hd; apply HD; now apply (queue_in decode P h s HR)|now left|].
    set (call := Start 0%nat NextMessage :: repeat (Step 0%nat) n) in *.
    assert (EA : arrivals call = []).
    { change (arrivals call) with (arrivals (repeat (Step 0%nat) n)). clear. induction n; [reflexivity|exact IHn]. }
    assert (HCl : ~ In Close call).
    { intros [H|H]; [discriminate|]. apply repeat_spec in H. discriminate. }
    destruct (IH (h ++ call) s1) as (h' & s' & HC' & HQ' & HP' & HO' & EA' & HN' & HV' & HCl').
    + unfold reaches in *. rewrite crun_app, HR. exact HC.
    + exact HQ1.
    + exact HP1.
    + eapply stays_open; eauto.
    + intros i Hi. rewrite arrivals_app, EA, app_nil_r in Hi. auto.
    + exists (call ++ h'), s'. split; [rewrite crun_app, HC; exact HC'|]. split; [exact HQ'|]. split; [exact HP'|]. split; [exact HO'|].
      split; [now rewrite arrivals_app, EA, EA'|]. split; [|split].
      * intros t k Hk. apply in_app_or in Hk. destruct Hk as [[Hk|Hk]|Hk]; [now inversion Hk|apply repeat_spec in Hk; discriminate|now apply (HN' t)].
      * apply no_overlap_app. rewrite HC. split; [|exact HV']. unfold call. cbn [no_overlap]. split; [exact HQ|].
        destruct (cstep decode s (Start 0%nat NextMessage)); [apply no_overlap_steps|exact I].
      * intros H. apply in_app_or in H. tauto.
Qed.

(** The surplus of permits has no bound: for every k there is such a history with
    k deliveries, all returned, after which at least 2k permits were granted. *)
Theorem C28_surplus_unbounded : forall T (decode : bytes -> option T) P (mid : message) data v k,
  0 < P -> 3 * P < 2 ^ 32 -> decode data = Some v ->
  exists h s, only_next_message h /\ one_at_a_time decode P h /\ (forall i, In i (arrivals h) -> single_event i) /\ reaches decode P h s /\
    delivered h = N.of_nat k /\ length (returned (c_log s)) = k /\ pending decode s = [] /\ 2 * N.of_nat k <= granted P s.
Proof.
  intros T decode P mid data v k HP HB HD. set (i0 := InMessage (DSingle 1 mid data)).
  assert (Hi0 : received i0 /\ decodes decode i0).
  { split; [apply received_single; reflexivity|]. intros d E. inversion E; subst. cbn. rewrite HD. eauto. }
  assert (Hs0 : single_event i0) by (intros d E; inversion E; subst; eauto).
  assert (HX : exists h s, only_next_message h /\ one_at_a_time decode P h /\ (forall i, In i (arrivals h) -> i = i0) /\ reaches decode P h s /\
    delivered h = N.of_nat k /\ pending decode s = [] /\ quiet s /\ c_open s = true).
  { induction k as [|k (h & s & HN & HO & HA & HR & HDl & HP0 & HQ & HOp)].
    - exists [], (cons_init P). split; [intros t k []|]. split; [exact I|]. split; [intros i []|]. split; [reflexivity|]. split; [reflexivity|].
      split; [reflexivity|]. split; [intros t; reflexivity|reflexivity].
    - set (s1 := with_queue s (c_queue s ++ [i0])).
      assert (HS : cstep decode s (Arrive i0) = Some s1) by (cbn [cstep]; now rewrite HOp).
      destruct (drain decode P (pending decode s1) (h ++ [Arrive i0]) s1) as (h' & s' & HC & HQ' & HP' & HO' & EA & HN' & HV & _).
      + unfold reaches in *. rewrite crun_app, HR. cbn [crun]. now rewrite HS.
      + exact HQ.
      + reflexivity.
      + exact HOp.
      + intros d Hi. rewrite arrivals_app in Hi. apply in_app_or in Hi.
        assert (Ed : InMessage d = i0) by (destruct Hi as [Hi|[Hi|[]]]; [exact (HA _ Hi)|now symmetry]).
        destruct Hi0 as [A B]. split; [now rewrite Ed|exact (B d (eq_sym Ed))].
      + exists (h ++ Arrive i0 :: h'), s'. split; [|split; [|split; [|split; [|split; [|split; [exact HP'|split; [exact HQ'|exact HO']]]]]]].
        * intros t q Hq. apply in_app_or in Hq. destruct Hq as [Hq|[Hq|Hq]]; [now apply (HN t)|discriminate|now apply (HN' t)].
        * apply no_overlap_app. split; [exact HO|]. rewrite HR. cbn [no_overlap]. rewrite HS. auto.
        * intros i Hi. rewrite arrivals_app in Hi. apply in_app_or in Hi. destruct Hi as [Hi|Hi]; [auto|].
          change (arrivals (Arrive i0 :: h')) with (i0 :: arrivals h') in Hi. rewrite EA in Hi. destruct Hi as [<-|[]]. reflexivity.
        * unfold reaches in *. rewrite crun_app, HR. cbn [crun]. now rewrite HS.
        * rewrite delivered_app, HDl. unfold delivered. change (arrivals (Arrive i0 :: h')) with (i0 :: arrivals h'). rewrite EA. cbn. lia. }
  destruct HX as (h & s & HN & HO & HA & HR & HDl & HP0 & HQ & HOp).
  assert (HAs : forall i, In i (arrivals h) -> single_event i) by (intros i Hi; now rewrite (HA i Hi)).
  exists h, s. split; [exact HN|]. split; [exact HO|]. split; [exact HAs|]. split; [exact HR|]. split; [exact HDl|].
  pose proof (C25_exactly_once_in_order T decode P h s HN HR) as HC. rewrite HP0, app_nil_r in HC.
  rewrite (delivered_stream decode h) in HDl by (intros i Hi; rewrite (HA i Hi); apply Hi0).
  assert (HL : length (returned (c_log s)) = k) by (rewrite HC; lia).
  split; [exact HL|]. split; [exact HP0|].
  destruct (single_run decode P h s HP HB HN HO HAs HR) as [HI (j & HG & HLj)].
  pose proof (seq_quiet _ _ _ HI HQ) as HPl. cbn in HPl. unfold granted. rewrite HG. lia.
Qed.

(** * C29 *)
Lemma good_app {T} (decode : bytes -> option T) a b : good_entries decode (a ++ b) = good_entries decode a + good_entries decode b.
Proof. unfold good_entries. rewrite arrivals_app, filter_app, app_length. lia. Qed.
Definition goods {T} (decode : bytes -> option T) (q : list inbound) : N := N.of_nat (length (filter (good_entry decode) q)).
Lemma goods_cons {T} (decode : bytes -> option T) i q : goods decode (i :: q) = (if good_entry decode i then 1 else 0) + goods decode q.
Proof. unfold goods. cbn. destruct (good_entry decode i); cbn [length]; lia. Qed.
Definition low {T} (decode : bytes -> option T) (P n : N) (s : cons T) : Prop :=
  c_permits s = P /\ grants (c_log s) = [] /\
  (forall t p, c_tasks s t = Some p -> match p with AtFlow _ _ | AtStore _ => False | _ => True end) /\
  c_counter s + N.of_nat (length (in_hand s)) + goods decode (c_queue s) <= n.
Lemma low_step {T} (decode : bytes -> option T) P n s e s' : lock_ok s -> nm_ok s -> low decode P n s -> n < P ->
  cstep decode s e = Some s' -> low decode P (n + goods decode (arr1 e)) s'.
Proof.
  intros HL HN (EP & HG & HT & HC) HB HS. pose proof HN as (HK & HR & HCt).
  assert (Mk : forall t q, c_permits s' = c_permits s -> c_tasks s' = set_task (c_tasks s) t q ->
     match q with Some (AtFlow _ _) | Some (AtStore _) => False | _ => True end ->
     (c_log s' = c_log s \/ exists u k r, c_log s' = c_log s ++ [Returned u k r]) ->
     c_counter s' + N.of_nat (length (in_hand s')) + goods decode (c_queue s') <= n + goods decode (arr1 e) ->
     low decode P (n + goods decode (arr1 e)) s').
  { intros t q E1 E2 Hq E3 H. split; [congruence|]. split; [|split; [|exact H]].
    - destruct E3 as [E3|(u & k & r & E3)]; rewrite E3; [exact HG|]. rewrite grants_snoc, HG. reflexivity.
    - intros u p Hu. rewrite E2 in Hu. destruct (Nat.eq_dec u t) as [->|NE]; [rewrite set_task_same in Hu; subst q; exact Hq|rewrite set_task_other in Hu by exact NE; exact (HT u p Hu)]. }
  destruct e as [t k|t|t|i|]; cbn in HS.
  - destruct (c_tasks s t) eqn:ET; [discriminate|]. inversion HS; subst s'. eapply Mk; try reflexivity; [now left|].
    replace (in_hand (goto s t (AtCheck k))) with (in_hand s) by (symmetry; oh). cbn. lia.
  - destruct (c_tasks s t) as [p|] eqn:ET; [|discriminate]. pose proof (HK _ _ ET) as Hk. pose proof (HT _ _ ET) as Hp.
    destruct p as [k|k c|k|k|k taken|k out]; cbn in Hk; subst k; try contradiction; cbn in HS.
    + assert (HLt : (c_permits s <=? c_counter s) = false) by (apply N.leb_gt; lia). rewrite HLt in HS. inversion HS; subst s'.
      eapply Mk; try reflexivity; [now left|].
      replace (in_hand (goto s t (AtLock NextMessage))) with (in_hand s) by (symmetry; oh). cbn. lia.
    + destruct (c_lock s) eqn:EL; [discriminate|]. rewrite (free_hand s EL) in HC. destruct (c_buf s) as [|m r] eqn:EB; inversion HS; subst s'.
      * eapply Mk; try reflexivity; [now left|]. unfold in_hand. cbn. lk. cbn. lia.
      * eapply Mk; try reflexivity; [right; cbn; eauto|]. unfold in_hand. cbn. lia.
    + destruct (HR _ _ ET) as [-> EB]. rewrite (my_hand s t _ HL ET eq_refl) in HC. cbn [pc_hand length] in HC.
      pose proof (lock_holder _ _ _ HL ET eq_refl) as EL.
      destruct (c_queue s) as [|i q] eqn:EQ.
      * destruct (c_open s); inversion HS; subst s'. eapply Mk; try reflexivity; [right; cbn; eauto|]. unfold in_hand. cbn. rewrite EQ. lia.
      * rewrite goods_cons in HC.
        assert (HO : good_entry decode i = false -> s' = with_queue s q -> low decode P (n + goods decode (arr1 (Step t))) s').
        { intros E ->. rewrite E in HC. split; [exact EP|]. split; [exact HG|]. split; [exact HT|].
          change (in_hand (with_queue s q)) with (in_hand s). rewrite (my_hand s t _ HL ET eq_refl). cbn. lia. }
        destruct i; try (apply HO; [reflexivity|now inversion HS]). clear HO. cbn [good_entry] in HC.
        destruct (unpack decode d) as [[|m r]|er|]; inversion HS; subst s'; (eapply Mk; try reflexivity; [cbn; eauto|]); unfold in_hand; cbn; try lia.
        rewrite EL. lk. cbn. lia.
    + rewrite (my_hand s t _ HL ET eq_refl) in HC. cbn [pc_hand] in HC. rewrite (HCt _ _ ET) in HC. inversion HS; subst s'.
      eapply Mk; try reflexivity; [right; cbn; eauto|]. unfold in_hand. cbn. rewrite (HCt _ _ ET).
      pose proof (N.mod_le (c_counter s + N.of_nat 1) u32_max). unfold u32_max in *. lia.
  - destruct (c_tasks s t) as [p|] eqn:ET; [|discriminate]. pose proof (HK _ _ ET) as Hk.
    destruct p as [k|k c|k|k|k taken|k out]; cbn in Hk; try subst k; inversion HS; subst s'; (eapply Mk; try reflexivity; [now left|]).
    + match goal with |- context [in_hand ?x] => replace (in_hand x) with (in_hand s) by (symmetry; oh) end. cbn. lia.
    + match goal with |- context [in_hand ?x] => replace (in_hand x) with (in_hand s) by (symmetry; oh) end. cbn. lia.
    + unfold in_hand. cbn. lia.
  - destruct (c_open s); inversion HS; subst s'. split; [exact EP|]. split; [exact HG|]. split; [exact HT|].
    change (in_hand (with_queue s (c_queue s ++ [i]))) with (in_hand s). unfold goods in *. cbn [c_queue with_queue c_counter arr1]. rewrite filter_app, app_length. lia.
  - inversion HS; subst s'. split; [exact EP|]. split; [exact HG|]. split; [exact HT|].
    change (c_counter s + N.of_nat (length (in_hand s)) + goods decode (c_queue s) <= n + 0). lia.
Qed.

(** next_message counts one permit per entry: until a full window of entries has
    arrived, however many messages they hold, no permits are granted, under every
    interleaving of calls. (Entries that do not decode are not counted at all.) *)
Theorem C29_no_grants_below_window_entries : forall T (decode : bytes -> option T) P h s,
  only_next_message h -> reaches decode P h s -> good_entries decode h < P -> grants (c_log s) = [].
Proof.
  intros T decode P h s HN HR HB.
  assert (HLow : low decode P (good_entries decode h) s); [|now destruct HLow as (_ & HG & _)].
  revert HN HB. unfold reaches in HR. revert h s HR.
  apply (crun_ind decode (fun h s => only_next_message h -> good_entries decode h < P -> low decode P (good_entries decode h) s)).
  - intros _ _. split; [reflexivity|]. split; [reflexivity|]. split; [intros t p H; discriminate|]. cbn. lia.
  - intros h s e s' HR IH HS HN HB. rewrite good_app in *.
    assert (HN' : only_next_message h) by (intros t k Hk; apply (HN t); apply in_or_app; now left).
    assert (HL : low decode P (good_entries decode h) s) by (apply IH; [exact HN'|lia]).
    replace (good_entries decode [e]) with (goods decode (arr1 e)) by (unfold goods, good_entries; cbn; now rewrite app_nil_r).
    destruct (run_nm decode h _ _ (init_lock P) (init_nm P) HN' HR) as [HM _].
    apply (low_step decode P _ s e s'); try assumption; [exact (run_lock decode h _ _ (init_lock P) HR)|lia].
Qed.
(** Once the broker has used up the initial permits on fewer entries than the
    window, the consumer is stuck: in every continuation in which the broker
    respects the permits, no further message arrives and no permits are granted. *)
Theorem C29_stalled_forever : forall T (decode : bytes -> option T) P h s h' s',
  only_next_message (h ++ h') -> reaches decode P h s -> good_entries decode h < P -> 2 * P <= delivered h ->
  broker_respects decode P (h ++ h') -> crun decode s h' = Some s' ->
  grants (c_log s') = [] /\ forall d, ~ In (InMessage d) (arrivals h').
Proof.
  intros T decode P h s h' s' HN HR HB HD HBr HC.
  assert (HX : forall h1 s1, (exists h2, h' = h1 ++ h2) -> crun decode s h1 = Some s1 ->
     grants (c_log s1) = [] /\ forall d, ~ In (InMessage d) (arrivals h1)).
  { intros h1. induction h1 as [|e h1 IH] using rev_ind; intros s1 [h2 E] H1.
    - cbn in H1. inversion H1; subst s1. split; [|intros d []].
      apply (C29_no_grants_below_window_entries T decode P h s); auto. intros t k Hk. apply (HN t). apply in_or_app. now left.
    - rewrite crun_app in H1. destruct (crun decode s h1) as [s0|] eqn:E0; [|discriminate].
      destruct (IH s0) as [IHG IHA]; [exists (e :: h2); now rewrite E, <- app_assoc|reflexivity|].
      assert (HR0 : reaches decode P (h ++ h1) s0) by (unfold reaches in *; rewrite crun_app, HR; exact E0).
      assert (He : forall d, e <> Arrive (InMessage d)).
      { intros d ->. pose proof (HBr (h ++ h1) d h2 s0) as HL. rewrite <- app_assoc in HL. cbn [app] in HL.
        specialize (HL ltac:(rewrite E, <- app_assoc; reflexivity) HR0). unfold granted in HL. rewrite IHG, delivered_app in HL. cbn in HL. lia. }
      assert (HA : forall d, ~ In (InMessage d) (arrivals (h1 ++ [e]))).
      { intros d Hin. rewrite arrivals_app in Hin. apply in_app_or in Hin. destruct Hin as [Hin|Hin]; [now apply (IHA d)|].
        destruct e; cbn in Hin; try tauto. destruct Hin as [->|[]]. now apply (He d). }
      split; [|exact HA].
      apply (C29_no_grants_below_window_entries T decode P (h ++ h1 ++ [e]) s1).
      + intros t k Hk. apply (HN t). rewrite E. apply in_app_or in Hk. apply in_or_app. destruct Hk as [Hk|Hk]; [now left|right; apply in_or_app; now left].
      + unfold reaches in *. rewrite crun_app, HR, crun_app, E0. exact H1.
      + rewrite good_app. replace (good_entries decode (h1 ++ [e])) with 0; [lia|]. symmetry. unfold good_entries.
        replace (filter (good_entry decode) (arrivals (h1 ++ [e]))) with (@nil inbound); [reflexivity|]. symmetry.
        destruct (filter (good_entry decode) (arrivals (h1 ++ [e]))) as [|i l] eqn:EF; [reflexivity|].
        assert (Hin : In i (filter (good_entry decode) (arrivals (h1 ++ [e])))) by (rewrite EF; now left). apply filter_In in Hin. destruct Hin as [Hin Hg].
        destruct i; try discriminate. now destruct (HA d). }
  apply (HX h' s'); [exists []; now rewrite app_nil_r|exact HC].
Qed.
(** Such histories exist for every window of at least two: one batch of twice the
    window is enough. Everything it held has been returned. *)
Theorem C29_stall_reached : forall T (decode : bytes -> option T) P (mid : message) data v,
  2 <= P -> 2 * P < 2 ^ 31 -> blen data < 2 ^ 31 -> decode data = Some v ->
  exists h s, only_next_message h /\ one_at_a_time decode P h /\ (forall i, In i (arrivals h) -> received i) /\
    reaches decode P h s /\ broker_respects decode P h /\ good_entries decode h < P /\ 2 * P <= delivered h /\
    returned (c_log s) = stream decode (arrivals h) /\ pending decode s = [] /\ quiet s.
Proof.
  intros T decode P mid data v HP HB HD HV. change (2 ^ 31) with 2147483648 in *.
  destruct (received_batch 1 mid (repeat data (N.to_nat (2 * P)))) as (parts & Hrec & Hparts).
  { rewrite repeat_length. lia. } { apply Forall_forall. intros x Hx. apply repeat_spec in Hx. now subst. }
  assert (HPl : length parts = N.to_nat (2 * P)) by (rewrite <- (map_length bp_data), Hparts; apply repeat_length).
  set (i0 := InMessage (DBatch 1 mid parts)).
  assert (HDec : decodes decode i0).
  { intros d E. inversion E; subst d. destruct (unpack decode (DBatch 1 mid parts)) as [ms|er|] eqn:EU; [eauto| |].
    - cbn in EU. destruct (decode_parts decode parts); discriminate.
    - apply unpack_panic in EU. destruct EU as (c & mid' & parts' & p & E2 & Hp & Hn). inversion E2; subst.
      assert (Hin : In (bp_data p) (repeat data (N.to_nat (2 * P)))) by (rewrite <- Hparts; now apply in_map).
      apply repeat_spec in Hin. congruence. }
  set (s1 := with_queue (cons_init P) [i0] : cons T).
  assert (HS : cstep decode (cons_init P) (Arrive i0) = Some s1) by reflexivity.
  destruct (drain decode P (pending decode s1) [Arrive i0] s1) as (h' & s' & HC & HQ' & HP' & HO' & EA & HN' & HVl & _).
  - unfold reaches. cbn [crun]. now rewrite HS.
  - intros t. reflexivity.
  - reflexivity.
  - reflexivity.
  - intros d [Ed|[]]. split; [rewrite <- Ed; exact Hrec|exact (HDec d Ed)].
  - set (h := Arrive i0 :: h').
    assert (EAr : arrivals h = [i0]) by (change (arrivals h) with (i0 :: arrivals h'); now rewrite EA).
    assert (EDl : delivered h = 2 * P).
    { unfold delivered. rewrite EAr. cbn. rewrite HPl. lia. }
    assert (HN : only_next_message h) by (intros t k [Hk|Hk]; [discriminate|now apply (HN' t)]).
    assert (HR : reaches decode P h s') by (unfold reaches, h; cbn [crun]; now rewrite HS).
    exists h, s'. split; [exact HN|]. split.
    { unfold one_at_a_time, h. cbn [no_overlap]. rewrite HS. auto. }
    split; [intros i Hi; rewrite EAr in Hi; destruct Hi as [<-|[]]; exact Hrec|]. split; [exact HR|]. split; [|split; [|split; [lia|split; [|split; [exact HP'|exact HQ']]]]].
    + intros h1 d h2 s0 E HR0. assert (Hd : delivered h = delivered h1 + messages_of d + delivered h2).
      { rewrite E, delivered_app. change (Arrive (InMessage d) :: h2) with ([Arrive (InMessage d)] ++ h2). rewrite delivered_app. unfold delivered at 2. cbn. lia. }
      assert (Hin : In (InMessage d) (arrivals h)) by (rewrite E, arrivals_app; apply in_or_app; right; now left).
      rewrite EAr in Hin. destruct Hin as [Hin|[]]. inversion Hin; subst d. cbn [messages_of] in Hd. unfold granted. lia.
    + unfold good_entries. rewrite EAr. cbn. destruct (decode_parts decode parts); cbn; lia.
    + pose proof (C25_exactly_once_in_order T decode P h s' HN HR) as HE. now rewrite HP', app_nil_r in HE.
Qed.
(** An undecodable single message uses a permit that is never made good either:
    after 2P of them the consumer is stuck in the same way (C29_stalled_forever). *)
Theorem C28_undecodable_never_counted : forall T (decode : bytes -> option T) P h s,
  only_next_message h -> reaches decode P h s -> (forall d ms, In (InMessage d) (arrivals h) -> unpack decode d <> Ok ms) ->
  0 < P -> grants (c_log s) = [].
Proof.
  intros T decode P h s HN HR HA HP. apply (C29_no_grants_below_window_entries T decode P h s HN HR).
  unfold good_entries. replace (filter (good_entry decode) (arrivals h)) with (@nil inbound); [exact HP|]. symmetry.
  destruct (filter (good_entry decode) (arrivals h)) as [|i l] eqn:EF; [reflexivity|].
  assert (Hin : In i (filter (good_entry decode) (arrivals h))) by (rewrite EF; now left). apply filter_In in Hin. destruct Hin as [Hin Hg].
  destruct i; try discriminate. cbn in Hg. destruct (unpack decode d) eqn:EU; try discriminate. now destruct (HA d a Hin).
Qed.

(** * Concrete cases *)
Definition ex_feed (n : nat) : list cev := serve_all n (ex_single 1 (str "x")).
(** C28, C30 (no overlap): window 3, four messages read one at a time. *)
Definition ex_h28 : list cev := ex_feed 3 ++ [Arrive (ex_single 2 (str "y")); Start 0 NextMessage; Step 0; Step 0; Step 0; Step 0; Step 0; Step 0; Start 0 NextMessage; Step 0; Step 0]%nat.
Example ex_C28 : match crun ex_decode (cons_init 3) ex_h28 with
  | Some s => grants (c_log s) = [6] /\ delivered ex_h28 = 4 /\ granted 3 s = 12 /\ waiting ex_decode 0%nat s /\ flows_exact 3 0 (c_log s)
  | None => False end.
Proof. vm_compute. repeat split; discriminate || reflexivity. Qed.
Example ex_C28_hyps : only_next_message ex_h28 /\ forall i, In i (arrivals ex_h28) -> single_event i /\ decodes ex_decode i.
Proof.
  split.
  - intros t k H. repeat (destruct H as [H|H]; [inversion H; reflexivity || discriminate|]). destruct H.
  - intros i H. cbn in H.
    assert (HS : forall e d, bytes_eqb d (str "bad") = false -> single_event (ex_single e d) /\ decodes ex_decode (ex_single e d)).
    { intros e d Hd. split; intros x E; inversion E; subst; [eauto|]. cbn. unfold ex_decode. rewrite Hd. eauto. }
    repeat (destruct H as [<-|H]; [apply HS; reflexivity|]). destruct H.
Qed.
Lemma seq_pos_overlap {T} (decode : bytes -> option T) s h : (forall t k, ~ In (Start t k) h) -> no_overlap decode s h.
Proof.
  revert s. induction h as [|e h IH]; intros s H; cbn; [exact I|]. split; [destruct e; auto; destruct (H t k); now left|].
  destruct (cstep decode s e); [|exact I]. apply IH. intros t k Hk. apply (H t k). now right.
Qed.
(** C29 at the library's own window of 250: two batches of 250. *)
Definition ex_b250 : inbound := ex_batch 1 (repeat (str "x") 250).
Definition ex_h29 : list cev := [Arrive ex_b250; Arrive ex_b250].
Example ex_C29 : good_entries ex_decode ex_h29 = 2 /\ delivered ex_h29 = 500.
Proof. vm_compute. auto. Qed.

Print Assumptions C30_exact_without_overlap.
Print Assumptions C30_refilled_before_waiting.
Print Assumptions C30_double_grant_everywhere.
Print Assumptions C30_double_grant_reached.
Print Assumptions C30_lost_count_reached.
Print Assumptions C28_always_a_window_ahead.
Print Assumptions C28_permits_when_waiting.
Print Assumptions C28_surplus_unbounded.
Print Assumptions C29_no_grants_below_window_entries.
Print Assumptions C29_stalled_forever.
Print Assumptions C29_stall_reached.
Print Assumptions C28_undecodable_never_counted.
