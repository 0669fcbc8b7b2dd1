(** Facts about the write half of a connection's stream. *)
From Verif Require Import Bytes Errors Wire Proto Codec Address Message SpecMessage Client Engine SpecEngine EngineFacts Sink SpecStack.
Open Scope N_scope.

Lemma flush_spec ws : forall k fin k' ok, poll_flush k ws fin = (k', ok) ->
  sk_sent k' ++ sk_buf k' = sk_sent k ++ sk_buf k /\ initial (sk_sent k) (sk_sent k') /\ (ok = true -> sk_buf k' = []).
Proof.
  induction ws as [|w ws IH]; intros k fin k' ok; cbn [poll_flush]; destruct (sk_buf k) as [|b0 bs] eqn:B.
  - intros [= <- <-]. rewrite B. repeat split; auto. exists []. now rewrite app_nil_r.
  - intros [= <- <-]. rewrite B. repeat split; [exists []; now rewrite app_nil_r|discriminate].
  - intros [= <- <-]. rewrite B. repeat split; auto. exists []. now rewrite app_nil_r.
  - destruct w as [n|]; [destruct (n =? 0)|].
    + intros [= <- <-]. rewrite B. repeat split; [exists []; now rewrite app_nil_r|discriminate].
    + set (m := N.to_nat _). intros H. apply IH in H. cbn [sk_buf sk_sent] in H. destruct H as (H1 & [r H2] & H3). split; [|split].
      * rewrite H1, <- app_assoc, firstn_skipn. reflexivity.
      * exists (firstn m (b0 :: bs) ++ r). now rewrite H2, app_assoc.
      * exact H3.
    + intros [= <- <-]. rewrite B. repeat split; [exists []; now rewrite app_nil_r|discriminate].
Qed.
(** One send: the bytes taken and waiting are those before and the frame, if taken. *)
Lemma send_frame_spec k p f k' taken ok : send_frame k p f = (k', taken, ok) ->
  sk_sent k' ++ sk_buf k' = (sk_sent k ++ sk_buf k) ++ (if taken then f else []) /\ initial (sk_sent k) (sk_sent k') /\
  (ok = true -> sk_buf k' = [] /\ taken = true) /\ (taken = false -> backpressure <= blen (sk_buf k)).
Proof.
  unfold send_frame. destruct (backpressure <=? blen (sk_buf k)) eqn:L.
  - apply N.leb_le in L. destruct (poll_flush k (io_ready p) (io_ready_end p)) as [k1 ready] eqn:F1. apply flush_spec in F1 as (A1 & [r A2] & A3). destruct ready.
    + destruct (poll_flush _ (io_write p) (io_end p)) as [k2 ok2] eqn:F2. apply flush_spec in F2 as (B1 & [r' B2] & B3). cbn [sk_buf sk_sent] in *. intros [= <- <- <-]. split; [|split; [|split]].
      * rewrite B1, app_assoc, A1. reflexivity.
      * exists (r ++ r'). now rewrite B2, A2, app_assoc.
      * auto.
      * discriminate.
    + intros [= <- <- <-]. rewrite A1, app_nil_r. repeat split; try discriminate; auto. now exists r.
  - destruct (poll_flush _ (io_write p) (io_end p)) as [k2 ok2] eqn:F2. apply flush_spec in F2 as (B1 & [r' B2] & B3). cbn [sk_buf sk_sent] in *. intros [= <- <- <-]. split; [|split; [|split]].
    + rewrite B1, app_assoc. reflexivity.
    + now exists r'.
    + auto.
    + discriminate.
Qed.
(** The sink after all of a list of offers. *)
Fixpoint sink_end (k : sink) (l : list offer) : sink :=
  match l with [] => k | x :: r => sink_end (fst (fst (send_frame k (of_io x) (of_frame x)))) r end.
Lemma sink_end_app l m : forall k, sink_end k (l ++ m) = sink_end (sink_end k l) m.
Proof. induction l as [|x l IH]; intros k; [reflexivity|]. apply IH. Qed.
Lemma send_all_app l m : forall k, send_all k (l ++ m) = send_all k l ++ send_all (sink_end k l) m.
Proof. induction l as [|x l IH]; intros k; [reflexivity|]. cbn [send_all sink_end app]. destruct (send_frame k (of_io x) (of_frame x)) as [[k1 t] ok]. cbn [fst]. now rewrite IH. Qed.
Lemma last_map_cons {A B} (f : A -> B) x l d e : last (map f (x :: l)) d = last (map f (x :: l)) e.
Proof. revert x. induction l as [|y l IH]; intros x; [reflexivity|]. exact (IH y). Qed.
Lemma sent_end l : forall k, last (map at_sent (send_all k l)) (sk_sent k) = sk_sent (sink_end k l).
Proof.
  induction l as [|x l IH]; intros k; [reflexivity|]. cbn [send_all sink_end]. destruct (send_frame k (of_io x) (of_frame x)) as [[k1 t] ok]. cbn [fst]. rewrite <- IH.
  destruct (send_all k1 l) as [|y r] eqn:Z; [reflexivity|]. cbn [map at_sent]. change (at_sent y :: map at_sent r) with (map at_sent (y :: r)).
  rewrite (last_map_cons at_sent y r (sk_sent k1) (sk_sent k)). reflexivity.
Qed.
Lemma sent_all l : bytes_out (send_all sink_init l) = sk_sent (sink_end sink_init l).
Proof. unfold bytes_out. rewrite <- sent_end. reflexivity. Qed.
Lemma send_all_cmds l : forall k, map at_cmd (send_all k l) = map of_cmd l.
Proof. induction l as [|x l IH]; intros k; [reflexivity|]. cbn. destruct (send_frame k (of_io x) (of_frame x)) as [[k1 t] ok]. cbn. now rewrite IH. Qed.
Lemma send_all_frames l : forall k, map at_frame (send_all k l) = map of_frame l.
Proof. induction l as [|x l IH]; intros k; [reflexivity|]. cbn. destruct (send_frame k (of_io x) (of_frame x)) as [[k1 t] ok]. cbn. now rewrite IH. Qed.
(** Sent and waiting are the frames taken, whole, in order. *)
Lemma send_all_bytes l : forall k, sk_sent (sink_end k l) ++ sk_buf (sink_end k l) =
  (sk_sent k ++ sk_buf k) ++ concat (map at_frame (filter at_taken (send_all k l))).
Proof.
  induction l as [|x l IH]; intros k; [cbn; now rewrite app_nil_r|]. cbn [send_all sink_end]. destruct (send_frame k (of_io x) (of_frame x)) as [[k1 t] ok] eqn:F. cbn [fst].
  apply send_frame_spec in F as (F & _). rewrite IH, F. cbn [filter at_taken]. destruct t; cbn [map concat at_frame]; rewrite <- ?app_assoc; reflexivity.
Qed.
Lemma sent_grows l : forall k, initial (sk_sent k) (sk_sent (sink_end k l)).
Proof.
  induction l as [|x l IH]; intros k; [exists []; cbn; now rewrite app_nil_r|]. cbn [sink_end]. destruct (send_frame k (of_io x) (of_frame x)) as [[k1 t] ok] eqn:F. cbn [fst].
  apply send_frame_spec in F as (_ & [r F] & _). destruct (IH k1) as [r' R]. exists (r ++ r'). now rewrite R, F, app_assoc.
Qed.
Lemma send_all_split l : forall k w1 x w2, send_all k l = w1 ++ x :: w2 -> exists l1 o l2, l = l1 ++ o :: l2 /\ w1 = send_all k l1 /\
  send_all (sink_end k l1) [o] = [x] /\ w2 = send_all (sink_end k (l1 ++ [o])) l2 /\ at_cmd x = of_cmd o /\ at_frame x = of_frame o /\ at_sent x = sk_sent (sink_end k (l1 ++ [o])).
Proof.
  induction l as [|o l IH]; intros k w1 x w2 H; [destruct w1; discriminate|]. destruct w1 as [|y w1].
  - exists [], o, l. cbn [send_all sink_end app] in *. destruct (send_frame k (of_io o) (of_frame o)) as [[k1 t] ok] eqn:F. injection H as <- <-. cbn [fst]. repeat split; reflexivity.
  - cbn [send_all app] in H. destruct (send_frame k (of_io o) (of_frame o)) as [[k1 t] ok] eqn:F. injection H as <- H.
    destruct (IH k1 w1 x w2 H) as (l1 & p & l2 & -> & -> & A3 & A4 & A5 & A6 & A7). exists (o :: l1), p, l2. cbn [app sink_end send_all]. rewrite F. cbn [fst]. auto 10.
Qed.
(** The bytes on the wire are those of the frames taken up to any moment, apart from
    what waits; nothing waits after a success. *)
Lemma sent_initial l : initial (bytes_out (send_all sink_init l)) (concat (map at_frame (filter at_taken (send_all sink_init l)))).
Proof. rewrite sent_all. exists (sk_buf (sink_end sink_init l)). now rewrite (send_all_bytes l sink_init). Qed.
Lemma ok_empty l o x : send_all (sink_end sink_init l) [o] = [x] -> at_ok x = true -> at_taken x = true /\ sk_buf (sink_end sink_init (l ++ [o])) = [].
Proof.
  rewrite sink_end_app. cbn [send_all sink_end]. destruct (send_frame _ (of_io o) (of_frame o)) as [[k1 t] ok] eqn:F. intros [= <-]. cbn [at_ok at_taken fst].
  apply send_frame_spec in F as (_ & _ & F & _). intros ->. destruct F; auto.
Qed.
Lemma ok_sent l w1 x w2 : send_all sink_init l = w1 ++ x :: w2 -> at_ok x = true -> at_taken x = true /\ at_sent x = concat (map at_frame (filter at_taken (w1 ++ [x]))).
Proof.
  intros H O. apply send_all_split in H as (l1 & o & l2 & -> & -> & A3 & _ & _ & _ & A7). destruct (ok_empty _ _ _ A3 O) as [T B]. split; [exact T|].
  pose proof (send_all_bytes (l1 ++ [o]) sink_init) as S. rewrite B, app_nil_r, <- A7, send_all_app, A3 in S. exact S.
Qed.
Lemma untaken l x : In x (send_all sink_init l) -> at_taken x = false -> backpressure <= at_waiting x /\ at_ok x = false.
Proof.
  intros I T. apply in_split in I as (w1 & w2 & I). apply send_all_split in I as (l1 & o & l2 & _ & _ & A3 & _). cbn [send_all] in A3.
  destruct (send_frame _ (of_io o) (of_frame o)) as [[k1 t] ok] eqn:F. injection A3 as <-. cbn [at_taken at_waiting at_ok] in *. subst t.
  apply send_frame_spec in F as (_ & _ & F1 & F2). split; [now apply F2|]. destruct ok; [|reflexivity]. destruct (F1 eq_refl). discriminate.
Qed.
(** All ok: everything is taken and sent. *)
Lemma all_ok_sent l : all_ok (send_all sink_init l) -> filter at_taken (send_all sink_init l) = send_all sink_init l /\
  bytes_out (send_all sink_init l) = concat (map of_frame l).
Proof.
  intros A.
  assert (T : filter at_taken (send_all sink_init l) = send_all sink_init l).
  { assert (G : forall w, (forall x, In x w -> In x (send_all sink_init l)) -> filter at_taken w = w).
    { induction w as [|x w IH]; intros I; [reflexivity|]. cbn. destruct (at_taken x) eqn:Tx; [rewrite IH; [reflexivity|intros y Y; apply I; now right]|].
      exfalso. destruct (untaken l x (I x (or_introl eq_refl)) Tx) as [_ O]. rewrite (A x) in O; [discriminate|apply I; now left]. }
    apply G. auto. }
  split; [exact T|]. destruct l as [|o l] using rev_ind; [reflexivity|]. clear IHl.
  destruct (send_all (sink_end sink_init l) [o]) as [|x [|y r]] eqn:S; try (cbn [send_all] in S; destruct (send_frame _ _ _) as [[? ?] ?]; discriminate).
  pose proof (send_all_app l [o] sink_init) as Z. rewrite S in Z.
  destruct (ok_sent (l ++ [o]) _ x [] Z) as [_ K]; [apply A; rewrite Z; apply in_app_iff; right; now left|]. rewrite <- Z in K.
  unfold bytes_out. rewrite Z, map_app. cbn [map]. rewrite last_last, K, T, send_all_frames. reflexivity.
Qed.
(** Failing for good: the bytes sent begin the frames of everything offered. *)
Lemma good_initial l : fails_for_good (send_all sink_init l) -> initial (bytes_out (send_all sink_init l)) (concat (map of_frame l)).
Proof.
  induction l as [|o l IH] using rev_ind; intros G; [exists []; reflexivity|].
  assert (Z : send_all sink_init (l ++ [o]) = send_all sink_init l ++ send_all (sink_end sink_init l) [o]) by apply send_all_app.
  destruct (send_all (sink_end sink_init l) [o]) as [|x [|y r]] eqn:S; try (cbn [send_all] in S; destruct (send_frame _ _ _) as [[? ?] ?]; discriminate).
  assert (G' : fails_for_good (send_all sink_init l)).
  { intros w1 a w2 b w3 Eq F. apply (G w1 a w2 b (w3 ++ [x])); [|exact F]. rewrite Z, Eq. rewrite <- !app_assoc. cbn. now rewrite <- !app_assoc. }
  assert (D : (exists y, In y (send_all sink_init l) /\ at_ok y = false) \/ all_ok (send_all sink_init l)).
  { generalize (send_all sink_init l). clear. intros w. induction w as [|a w [(y & Y1 & Y2)|W]]; [right; intros x []|left; exists y; split; [now right|exact Y2]|].
    destruct (at_ok a) eqn:A; [right; intros y [<-|Y]; auto|left; exists a; split; [now left|exact A]]. }
  unfold bytes_out. rewrite Z, map_app. cbn [map]. rewrite last_last. destruct D as [(y & Y & F)|A].
  - destruct (IH G') as [r R]. exists (r ++ of_frame o). rewrite map_app, concat_app, R. cbn [map concat]. rewrite app_nil_r, app_assoc. f_equal. f_equal.
    apply in_split in Y as (w1 & w2 & Y). rewrite (G w1 y w2 x []); [|rewrite Z, Y, <- app_assoc; reflexivity|exact F].
    unfold bytes_out. rewrite Y, map_app. cbn [map]. destruct w2 as [|z w2] using rev_ind; [apply last_last|]. clear IHw2.
    rewrite map_app. cbn [map]. change (at_sent y :: map at_sent w2 ++ [at_sent z]) with ((at_sent y :: map at_sent w2) ++ [at_sent z]). rewrite app_assoc, last_last.
    apply (G' w1 y w2 z []); [exact Y|exact F].
  - destruct (all_ok_sent l A) as [T _]. pose proof (sent_initial (l ++ [o])) as [r I]. unfold bytes_out in I. rewrite Z, map_app in I. cbn [map] in I. rewrite last_last in I.
    exists r. rewrite <- I. rewrite <- (send_all_frames (l ++ [o]) sink_init), Z. f_equal. rewrite filter_app, T, !map_app. f_equal. cbn [filter].
    destruct (at_taken x) eqn:Tx; [reflexivity|]. exfalso.
    assert (I' : In x (send_all sink_init (l ++ [o]))) by (rewrite Z; apply in_app_iff; right; now left). destruct (untaken _ x I' Tx) as [W _].
    assert (B : sk_buf (sink_end sink_init l) = []).
    { destruct l as [|p l] using rev_ind; [reflexivity|]. clear IHl IH.
      destruct (send_all (sink_end sink_init l) [p]) as [|z [|z' r']] eqn:Sp; try (cbn [send_all] in Sp; destruct (send_frame _ _ _) as [[? ?] ?]; discriminate).
      apply (ok_empty l p z Sp). apply A. rewrite send_all_app, Sp. apply in_app_iff. right. now left. }
    assert (Wx : at_waiting x = blen (sk_buf (sink_end sink_init l))) by (cbn [send_all] in S; destruct (send_frame _ _ _) as [[? ?] ?]; now injection S as <-).
    rewrite Wx, B in W. vm_compute in W. now apply W.
Qed.
(** A connection that is never written to offers nothing. *)
Lemma no_offers E a io h : (forall now ok, ~ In (EvWrite a now ok) h) -> attempts E a io h = [].
Proof.
  intros N. unfold attempts. assert (X : forall h i s, (forall now ok, ~ In (EvWrite a now ok) h) -> offers E a io i s h = []); [|now rewrite X].
  clear h N. induction h as [|e h IH]; intros i s N; [reflexivity|]. cbn [offers].
  assert (Z : next_offer E a s e = None).
  { destruct e; try reflexivity. cbn [next_offer]. destruct (baddr_eqb a0 a) eqn:B; [|reflexivity]. apply baddr_eqb_spec in B. subst a0. exfalso. eapply N. left. reflexivity. }
  rewrite Z. destruct (step E s e); [|reflexivity]. apply IH. intros now ok X. eapply N. right. exact X.
Qed.
Lemma all_ok_check w : forallb at_ok w = true -> all_ok w.
Proof. intros H x X. rewrite forallb_forall in H. auto. Qed.
(** A transport that never fails does not fail for good. *)
Lemma ok_for_good w : all_ok w -> fails_for_good w.
Proof. intros A w1 x w2 y w3 E F. rewrite (A x) in F; [discriminate|]. rewrite E. apply in_elt. Qed.
