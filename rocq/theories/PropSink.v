(** C74: what gets onto the wire when the transport misbehaves. *)
From Verif Require Import Bytes Errors Wire Proto Codec SpecFrame SpecCodec Address Message SpecMessage Client SpecKeys SpecClient Producer Engine SpecEngine SpecEngine2 Sink SpecStack SinkFacts EngineFacts EngineInv EngineReq EngineEv EngineConn EngineLog EngineQueue EngineNet EngineEx CodecFacts MessageFacts PropCodec PropMessage PropClient PropProducer PropEngine PropEngine2 PropEngine6 PropStack PropReceipt PropRoute PropSends.
Open Scope N_scope.

(** The outcomes of the writes of connection [a], as the log reports them. *)
Definition reports (a : baddr) (l : list obs) : list bool :=
  flat_map (fun x => match x with OWrite b _ _ ok => if baddr_eqb b a then [ok] else [] | _ => [] end) l.

Lemma taken_frames E a io h s (keep : attempt -> bool) : reach E h s -> clock_fits a h -> (forall n o, In (n, o) (queued a (s_log s)) -> sendable_request o) ->
  exists mcs, Forall sendable mcs /\ Forall2 (fun mc b => encode (e_oc E) mc = Ok b) mcs (map at_frame (filter keep (attempts E a io h))) /\
    Forall2 request_of (map at_cmd (filter keep (attempts E a io h))) mcs.
Proof.
  intros H Ck Q. destruct (attempts_frames E a io h s H Ck Q) as (W & mcs & F1 & F2 & F3).
  destruct (Forall2_pick _ _ keep _ _ F2 _ F3) as (mcs' & cs & P1 & P2 & P3 & P4). specialize (P4 at_cmd W). subst cs. exists mcs'. split; [|split; [|exact P2]].
  - rewrite Forall_forall in *. auto.
  - now apply (Forall2_map_r (fun mc b => encode (e_oc E) mc = Ok b) at_frame).
Qed.
(** Whatever the transport does, a broker that reads any part of the bytes on the
    wire, cut in any way, decodes whole commands only: a beginning of the commands the
    stream took, which are commands the connection took for writing, in order, each at
    most once. *)
Theorem C74_whole_commands_in_order : forall E io h s a reads, reach E h s -> clock_fits a h ->
  (forall n o, In (n, o) (queued a (s_log s)) -> sendable_request o) -> initial (concat reads) (wire E a io h) ->
  exists mcs more, stream_items reads false = map IFrame mcs /\
    Forall2 request_of (taken_up (attempts E a io h)) (mcs ++ more) /\ subseq (taken_up (attempts E a io h)) (written a (s_log s)).
Proof.
  intros E io h s a reads H Ck Q I. destruct (taken_frames E a io h s at_taken H Ck Q) as (mcs & F1 & F2 & F3).
  destruct (some_frames (e_oc E) mcs _ reads F1 F2) as (g & G1 & [more ->]).
  - destruct I as [r1 I], (sent_initial (offers E a io 0 sys_init h)) as [r2 J]. fold (attempts E a io h) in J. unfold wire in I. rewrite I in J. exists (r1 ++ r2). now rewrite J, app_assoc.
  - exists g, more. split; [exact G1|]. split; [exact F3|]. destruct (attempts_frames E a io h s H Ck Q) as [<- _]. apply subseq_map, filter_subseq.
Qed.
(** If the transport, once it has failed, takes no more bytes, then a broker decodes a
    beginning of all the commands the connection took for writing. *)
Theorem C74_failing_for_good : forall E io h s a reads, reach E h s -> clock_fits a h -> fails_for_good (attempts E a io h) ->
  (forall n o, In (n, o) (queued a (s_log s)) -> sendable_request o) -> initial (concat reads) (wire E a io h) ->
  exists mcs more, stream_items reads false = map IFrame mcs /\ Forall2 request_of (written a (s_log s)) (mcs ++ more).
Proof.
  intros E io h s a reads H Ck Fg Q I. destruct (attempts_frames E a io h s H Ck Q) as (W & mcs & F1 & F2 & F3).
  destruct (some_frames (e_oc E) mcs (map at_frame (attempts E a io h)) reads F1) as (g & G1 & [more ->]); [now apply (Forall2_map_r (fun mc b => encode (e_oc E) mc = Ok b) at_frame)| |].
  - destruct I as [r1 I], (good_initial _ Fg) as [r2 J]. fold (attempts E a io h) in J. unfold wire in I. rewrite I in J.
    unfold attempts at 1. rewrite send_all_frames. exists (r1 ++ r2). now rewrite J, app_assoc.
  - eauto.
Qed.
(** A command is left out of the stream only if its own send reports a failure, with at
    least 8 KiB of the commands before it still unsent. *)
Theorem C74_lost_behind_a_backlog : forall E io h a w1 x w2, attempts E a io h = w1 ++ x :: w2 -> at_taken x = false ->
  at_ok x = false /\ 8192 + blen (bytes_out w1) <= blen (concat (map at_frame (filter at_taken w1))).
Proof.
  intros E io h a w1 x w2 A T. assert (I : In x (attempts E a io h)) by (rewrite A; apply in_elt). destruct (untaken _ x I T) as [Wt O]. split; [exact O|].
  apply send_all_split in A as (l1 & o & l2 & _ & -> & A3 & _). rewrite sent_all.
  assert (Wx : at_waiting x = blen (sk_buf (sink_end sink_init l1))) by (cbn [send_all] in A3; destruct (send_frame _ _ _) as [[? ?] ?]; now injection A3 as <-).
  pose proof (send_all_bytes l1 sink_init) as B. cbn [sk_sent sk_buf sink_init app] in B. rewrite <- B. rewrite Wx in Wt. unfold backpressure, blen in *. rewrite app_length. lia.
Qed.
(** When a send reports success, a broker that has read all bytes on the wire has
    decoded all commands the stream took until then, the last one being this one: also
    those whose own send reported a failure. *)
Theorem C74_success_means_out : forall E io h s a w1 x w2 reads, reach E h s -> clock_fits a h ->
  (forall n o, In (n, o) (queued a (s_log s)) -> sendable_request o) -> attempts E a io h = w1 ++ x :: w2 -> at_ok x = true -> concat reads = at_sent x ->
  exists mcs mc, stream_items reads false = map IFrame (mcs ++ [mc]) /\ Forall2 request_of (taken_up w1) mcs /\ request_of (at_cmd x) mc.
Proof.
  intros E io h s a w1 x w2 reads H Ck Q A O C. destruct (ok_sent _ w1 x w2 A O) as [T S].
  destruct (attempts_frames E a io h s H Ck Q) as (W & ms & F1 & F2 & F3). rewrite <- W in F3. rewrite A in F2, F3. rewrite map_app in F3. cbn [map] in F3.
  apply Forall2_app_inv_r in F2 as (m1 & m2 & G1 & G2 & ->). inversion G2 as [|mc ? m3 ? G3 G4]; subst.
  assert (L : length m1 = length (map at_cmd w1)) by (rewrite map_length; clear - G1; induction G1; cbn; auto).
  apply Forall2_app_inv_l in F3 as (n1 & n2 & K1 & K2 & K3).
  assert (Ln : length n1 = length (map at_cmd w1)) by (clear - K1; induction K1; cbn; auto).
  assert (n1 = m1 /\ n2 = mc :: m3) as [-> ->].
  { clear - K3 L Ln. rewrite <- L in Ln. clear L. revert m1 Ln K3. induction n1 as [|z n1 IH]; intros [|y m1] Ln K; try discriminate; [auto|]. cbn in *. injection K as -> K. injection Ln as Ln. destruct (IH m1 Ln K) as [-> ->]. auto. }
  inversion K2 as [|? ? ? ? K4 _]; subst.
  destruct (Forall2_pick _ _ at_taken _ _ G1 _ K1) as (mcs' & cs & P1 & P2 & P3 & P4). specialize (P4 at_cmd eq_refl). subst cs.
  exists mcs', mc. split; [|split; [exact P2|exact K4]].
  apply (all_frames (e_oc E) _ (map at_frame (filter at_taken (w1 ++ [x])))).
  - apply Forall_app in F1 as [F1 F4]. apply Forall_app. split; [rewrite Forall_forall in *; auto|]. inversion F4; subst. auto.
  - rewrite filter_app, map_app. cbn [filter]. rewrite T. cbn [map]. apply Forall2_app; [now apply (Forall2_map_r (fun mc b => encode (e_oc E) mc = Ok b) at_frame)|auto].
  - now rewrite C, S.
Qed.
(** A transport that works: it takes some bytes of every write, however few at a time,
    and its flush succeeds. *)
Definition works (limit : N) (p : io_plan) : Prop :=
  Forall (fun r => exists n, r = Took n /\ 0 < n) (io_write p) /\ limit <= N.of_nat (length (io_write p)) /\ io_end p = true.
Lemma flush_works ws : forall k, Forall (fun r => exists n, r = Took n /\ 0 < n) ws -> (length (sk_buf k) <= length ws)%nat -> snd (poll_flush k ws true) = true.
Proof.
  induction ws as [|w ws IH]; intros k F L; cbn [poll_flush]; destruct (sk_buf k) as [|b0 bs] eqn:B; try reflexivity; [cbn in L; lia|].
  inversion F as [|? ? (n & -> & Hn) F']; subst. destruct (N.eqb_spec n 0) as [->|_]; [lia|]. apply IH; [exact F'|]. cbn [sk_buf]. rewrite skipn_length. unfold blen. cbn [length] in *. lia.
Qed.
(** With such a transport all writes succeed. *)
Theorem C74_working_transport : forall E io h a limit, (forall i, works limit (io i)) -> (forall x, In x (attempts E a io h) -> blen (at_frame x) <= limit) ->
  all_ok (attempts E a io h).
Proof.
  intros E io h a limit Wk Lim. unfold attempts in *. 
  assert (P : forall i s, Forall (fun x => works limit (of_io x)) (offers E a io i s h)).
  { clear Lim. induction h as [|e r IH]; intros i s; [constructor|]. cbn [offers]. apply Forall_app. split; [|destruct (step E s e); [apply IH|constructor]].
    destruct (next_offer E a s e) as [[x w]|]; constructor; [apply Wk|constructor]. }
  specialize (P 0%nat sys_init). revert P Lim. generalize (offers E a io 0 sys_init h). intros l P Lim.
  assert (Lf : forall x, In x l -> blen (of_frame x) <= limit).
  { intros x X. assert (Y : In (of_frame x) (map at_frame (send_all sink_init l))) by (rewrite send_all_frames; now apply in_map). apply in_map_iff in Y as (y & <- & Y). auto. }
  clear Lim. assert (B : sk_buf sink_init = []) by reflexivity. revert B. generalize sink_init. revert P Lf. induction l as [|o l IH]; intros P Lf k B x; [intros []|].
  inversion P as [|? ? (P1 & P2 & P3) P4]; subst. cbn [send_all]. destruct (send_frame k (of_io o) (of_frame o)) as [[k1 t] ok] eqn:F.
  assert (O : ok = true).
  { unfold send_frame in F. rewrite B in F. change (backpressure <=? blen []) with false in F. cbv iota in F. rewrite B in F. cbn [app] in F. rewrite P3 in F.
    destruct (poll_flush _ (io_write (of_io o)) true) as [k2 ok2] eqn:Fl. injection F as _ _ <-. change ok2 with (snd (k2, ok2)). rewrite <- Fl. apply flush_works; [exact P1|]. cbn [sk_buf].
    specialize (Lf o (or_introl eq_refl)). unfold blen in Lf. lia. }
  intros [<-|X]; [exact O|]. apply (IH P4 (fun y Y => Lf y (or_intror Y)) k1); [|exact X].
  apply send_frame_spec in F as (_ & _ & F & _). apply F. exact O.
Qed.
(** The log reports a success only of a command that is out: read with everything that
    got onto the wire, in its place among the commands taken. *)
Lemma reports_attempts E a io h s : reach E h s -> clock_fits a h -> (forall n o, In (n, o) (queued a (s_log s)) -> sendable_request o) ->
  map at_ok (attempts E a io h) = reports a (s_log s) ->
  forall src o ok, In (OWrite a src o ok) (s_log s) -> exists x, In x (attempts E a io h) /\ at_cmd x = (src, o) /\ at_ok x = ok.
Proof.
  intros H Ck Q R src o ok I. destruct (attempts_frames E a io h s H Ck Q) as [W _].
  assert (G : forall l w, map at_cmd w = written a l -> map at_ok w = reports a l -> In (OWrite a src o ok) l -> exists x, In x w /\ at_cmd x = (src, o) /\ at_ok x = ok).
  { clear. induction l as [|z l IH]; intros w W R I; [destruct I|]. unfold written, reports in *. cbn [flat_map] in *.
    destruct z as [| | | | | | |b src' o' ok'| | | | | | | | | | |]; try (destruct I as [I|I]; [discriminate I|]; now apply IH).
    destruct (baddr_eqb b a) eqn:B.
    - destruct w as [|x w]; [discriminate|]. cbn [map app] in *. injection W as W1 W2. injection R as R1 R2. destruct I as [[= -> -> -> ->]|I].
      + exists x. split; [now left|auto].
      + destruct (IH w W2 R2 I) as (y & Y & Z). exists y. split; [now right|exact Z].
    - destruct I as [[= -> _ _ _]|I]; [rewrite baddr_eqb_refl in B; discriminate|]. now apply IH. }
  exact (G (s_log s) _ W R I).
Qed.
Theorem C74_reported_success_is_out : forall E io h s a src o reads, reach E h s -> clock_fits a h ->
  (forall n o, In (n, o) (queued a (s_log s)) -> sendable_request o) -> map at_ok (attempts E a io h) = reports a (s_log s) ->
  In (OWrite a src o true) (s_log s) -> concat reads = wire E a io h ->
  exists mcs mc, stream_items reads false = map IFrame mcs /\ In mc mcs /\ request_of (src, o) mc.
Proof.
  intros E io h s a src o reads H Ck Q R I C. destruct (reports_attempts E a io h s H Ck Q R _ _ _ I) as (x & X & Xc & Xo).
  apply in_split in X as (w1 & w2 & A). destruct (C74_success_means_out E io h s a w1 x w2 [at_sent x] H Ck Q A Xo (app_nil_r _)) as (mcs & mc & S & _ & D).
  rewrite Xc in D. 
  assert (Ini : initial (at_sent x) (wire E a io h)).
  { unfold wire. pose proof A as A'. unfold attempts in A' |- *. rewrite sent_all. apply send_all_split in A' as (l1 & p & l2 & El & _ & _ & _ & _ & _ & ->). rewrite El.
    change (l1 ++ p :: l2) with (l1 ++ [p] ++ l2). rewrite app_assoc, (sink_end_app (l1 ++ [p]) l2). apply sent_grows. }
  destruct Ini as [r Ini]. destruct (C74_whole_commands_in_order E io h s a reads H Ck Q) as (ms & more & S2 & _); [exists []; now rewrite app_nil_r|].
  exists ms, mc. split; [exact S2|]. split; [|exact D].
  assert (Re : stream_items reads false = stream_items ([at_sent x] ++ [r]) false).
  { apply C02_segmentation_irrelevant. cbn [app concat]. rewrite app_nil_r, <- Ini. exact C. }
  destruct (framed_initial [at_sent x] [] [r] false) as [q Z]. unfold stream_items in *. rewrite Z, S, S2 in Re.
  assert (Y : In (IFrame mc) (map IFrame ms)) by (rewrite Re; apply in_app_iff; left; apply in_map, in_elt). apply in_map_iff in Y as (m & [= ->] & Y). exact Y.
Qed.
Print Assumptions C74_whole_commands_in_order.
Print Assumptions C74_failing_for_good.
Print Assumptions C74_lost_behind_a_backlog.
Print Assumptions C74_success_means_out.
Print Assumptions C74_working_transport.
Print Assumptions C74_reported_success_is_out.

(** * Cases *)
(** A producer connects and sends: 9000 bytes, then two small messages. *)
Definition u_big : outbound := OSend (SSingle (str "p") 0 0 (repeat Byte.x41 (N.to_nat 9000))).
Definition u_s2 : outbound := OSend (SSingle (str "p") 0 1 (str "lost")).
Definition u_s3 : outbound := OSend (SSingle (str "p") 0 2 (str "late")).
Definition u_events : list event := x_reg2 ++ x_connect 0%nat ++
  [EvIssue 0%nat u_big; EvIssue 0%nat u_s2; EvIssue 0%nat u_s3; EvClient 0%nat; EvClient 0%nat; EvClient 0%nat;
   EvWrite xA 0 false; EvWrite xA 0 false; EvWrite xA 0 true].
Definition u_at : nat := Eval vm_compute in (length u_events - 3)%nat.
(** The transport takes 5 bytes of the first send and fails, fails again at the second,
    and works at the third. *)
Definition u_io (i : nat) : io_plan :=
  if (i =? u_at)%nat then mk_io [] true [Took 5; Fails] true
  else if (i =? S u_at)%nat then mk_io [Fails] true [Took 1000000] true
  else steady i.
Definition u_facts (s : sys) : Prop :=
  queued xA (s_log s) = [(Some 0%nat, z_c); (Some 1%nat, u_big); (Some 2%nat, u_s2); (Some 3%nat, u_s3)] /\
  written xA (s_log s) = queued xA (s_log s) /\ reports xA (s_log s) = [true; false; false; true] /\ s_phase s = PRun /\
  takes (s_log s) = [0; 1; 2; 3]%nat /\ settled (s_log s) = [0]%nat.
Lemma u_run : match run xE sys_init u_events with Some s => u_facts s | None => False end.
Proof. vm_compute. repeat match goal with |- _ /\ _ => split end; reflexivity. Qed.
Lemma u_attempts : map (fun x => (at_cmd x, at_taken x, at_ok x)) (attempts xE xA u_io u_events) =
  [((Some 0%nat, z_c), true, true); ((Some 1%nat, u_big), true, false); ((Some 2%nat, u_s2), false, false); ((Some 3%nat, u_s3), true, true)].
Proof. vm_compute. reflexivity. Qed.
Lemma u_clock : clock_fits xA u_events.
Proof. intros now ok X. unfold u_events, x_reg2, x_connect in X. cbn [app In] in X. PropReceipt.walk X; injection X as <- _; reflexivity. Qed.
Ltac u_fit := split; [cbn [req_ok]; repeat match goal with |- _ /\ _ => split end; vm_compute; auto|split; [vm_compute; reflexivity|discriminate]].
Lemma u_sendable s : u_facts s -> forall n o, In (n, o) (queued xA (s_log s)) -> sendable_request o.
Proof. intros (F & _) n o X. rewrite F in X. unfold z_c, u_big, u_s2, u_s3 in X. cbn [In] in X. PropReceipt.walk X; injection X as <- <-; u_fit. Qed.
(** A command lost without a word: its send waits, the engine goes on, the connection
    has written all its commands, the broker reads the commands before and after. The
    first command is out although its send reported a failure. *)
Theorem C74_silent_loss : exists s reads mcs, reach xE u_events s /\ clock_fits xA u_events /\
  (forall n o, In (n, o) (queued xA (s_log s)) -> sendable_request o) /\ map at_ok (attempts xE xA u_io u_events) = reports xA (s_log s) /\
  concat reads = wire xE xA u_io u_events /\ stream_items reads false = map IFrame mcs /\
  written xA (s_log s) = [(Some 0%nat, z_c); (Some 1%nat, u_big); (Some 2%nat, u_s2); (Some 3%nat, u_s3)] /\
  Forall2 request_of [(Some 0%nat, z_c); (Some 1%nat, u_big); (Some 3%nat, u_s3)] mcs /\
  s_phase s = PRun /\ In 2%nat (takes (s_log s)) /\ ~ In 2%nat (settled (s_log s)).
Proof.
  pose proof u_run as U. unfold reach. destruct (run xE sys_init u_events) as [s|] eqn:R; [|contradiction].
  pose proof (u_sendable s U) as Q. pose proof u_attempts as A. destruct U as (U1 & U2 & U3 & U4 & U5 & U6).
  assert (Ao : map at_ok (attempts xE xA u_io u_events) = [true; false; false; true]).
  { transitivity (map snd (map (fun x => (at_cmd x, at_taken x, at_ok x)) (attempts xE xA u_io u_events))); [now rewrite map_map|now rewrite A]. }
  destruct (attempts xE xA u_io u_events) as [|x0 [|x1 [|x2 [|x3 [|x4 w]]]]] eqn:W; try discriminate Ao.
  cbn [map] in Ao, A. injection Ao as O0 O1 O2 O3. injection A as A0 T0 _ A1 T1 _ A2 T2 _ A3 T3 _.
  destruct (C74_success_means_out xE u_io u_events s xA [x0; x1; x2] x3 [] [at_sent x3] R u_clock Q W O3 (app_nil_r _)) as (mcs & mc & S & F & D).
  exists s, [at_sent x3], (mcs ++ [mc]). split; [reflexivity|]. split; [exact u_clock|]. split; [exact Q|]. split; [cbn [map]; rewrite O0, O1, O2, O3; symmetry; exact U3|].
  split; [unfold wire, bytes_out; rewrite W; cbn [map last concat]; apply app_nil_r|]. split; [exact S|]. split; [rewrite U2; exact U1|]. split; [|split; [exact U4|split]].
  - change [(Some 0%nat, z_c); (Some 1%nat, u_big); (Some 3%nat, u_s3)] with ([(Some 0%nat, z_c); (Some 1%nat, u_big)] ++ [(Some 3%nat, u_s3)]).
    apply Forall2_app; [|constructor; [rewrite <- A3; exact D|constructor]]. unfold taken_up in F. cbn [filter] in F. rewrite T0, T1, T2 in F. cbn [map] in F. rewrite A0, A1 in F. exact F.
  - rewrite U5. cbn. auto.
  - rewrite U6. cbn. intuition discriminate.
Qed.
Print Assumptions C74_silent_loss.
(** This run meets the hypotheses of the theorems above (C74_whole_commands_in_order,
    C74_lost_behind_a_backlog, C74_success_means_out, C74_reported_success_is_out). A
    transport that is cut off in the middle of the second command: it fails for good. *)
Definition u_cut (i : nat) : io_plan := if (i <? u_at)%nat then steady i else if (i =? u_at)%nat then mk_io [] true [Took 5; Fails] true else mk_io [] true [] true.
Example C74_meets_cut : exists s, reach xE u_events s /\ clock_fits xA u_events /\ (forall n o, In (n, o) (queued xA (s_log s)) -> sendable_request o) /\
  fails_for_good (attempts xE xA u_cut u_events) /\ map at_taken (attempts xE xA u_cut u_events) = [true; true; false; false] /\
  blen (wire xE xA u_cut u_events) = 5 + blen (wire xE xA u_cut (x_reg2 ++ x_connect 0%nat)).
Proof.
  pose proof u_run as U. unfold reach. destruct (run xE sys_init u_events) as [s|] eqn:R; [|contradiction].
  exists s. split; [reflexivity|]. split; [exact u_clock|]. split; [exact (u_sendable s U)|]. split; [|split; vm_compute; reflexivity].
  assert (Z : map at_ok (attempts xE xA u_cut u_events) = [true; false; false; false] /\
              match attempts xE xA u_cut u_events with [x0; x1; x2; x3] => at_sent x2 = at_sent x1 /\ at_sent x3 = at_sent x1 | _ => False end) by (vm_compute; auto).
  destruct Z as [Z1 Z2]. destruct (attempts xE xA u_cut u_events) as [|x0 [|x1 [|x2 [|x3 [|x4 w]]]]]; try contradiction. cbn [map] in Z1. injection Z1 as O0 O1 O2 O3. destruct Z2 as [Z2 Z3].
  intros w1 x w2 y w3 Eq F. destruct w1 as [|y0 [|y1 [|y2 [|y3 [|? ?]]]]]; cbn [app] in Eq; try discriminate Eq.
  - injection Eq as -> Eq. congruence.
  - injection Eq as _ -> Eq. destruct w2 as [|v0 [|v1 [|? ?]]]; cbn [app] in Eq; try discriminate Eq; [injection Eq as -> _|injection Eq as _ -> _]; congruence.
  - injection Eq as _ _ -> Eq. destruct w2 as [|v0 [|? ?]]; cbn [app] in Eq; try discriminate Eq. injection Eq as -> _. congruence.
  - injection Eq as _ _ _ _ Eq. destruct w2; discriminate Eq.
Qed.
(** A slow transport: two bytes at a time. *)
Definition u_slow (_ : nat) : io_plan := mk_io [] true (repeat (Took 2) 200) true.
Example C74_meets_slow : (forall i, works 200 (u_slow i)) /\ (forall x, In x (attempts xE xA u_slow y_ops) -> blen (at_frame x) <= 200) /\
  length (attempts xE xA u_slow y_ops) = 2%nat.
Proof.
  split; [|split].
  - intros i. unfold works, u_slow. cbn [io_write io_end]. split; [|split; [rewrite repeat_length; vm_compute; discriminate|reflexivity]].
    apply Forall_forall. intros r X. apply repeat_spec in X. exists 2. split; [exact X|reflexivity].
  - assert (Z : forallb (fun x => blen (at_frame x) <=? 200) (attempts xE xA u_slow y_ops) = true) by (vm_compute; reflexivity).
    intros x X. rewrite forallb_forall in Z. apply N.leb_le. exact (Z x X).
  - vm_compute. reflexivity.
Qed.
