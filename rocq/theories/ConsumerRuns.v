(** Lemmas about a single call that runs without interference. *)
From Verif Require Import Bytes Errors Wire Proto Message Consumer SpecConsumer ConsumerFacts.
Open Scope N_scope.

Definition steps {T} (decode : bytes -> option T) (t : nat) (s s' : cons T) : Prop :=
  exists n, crun decode s (repeat (Step t) n) = Some s'.
Lemma steps_refl {T} (decode : bytes -> option T) t s : steps decode t s s.
Proof. exists O. reflexivity. Qed.
Lemma steps_trans {T} (decode : bytes -> option T) t s1 s2 s3 : steps decode t s1 s2 -> steps decode t s2 s3 -> steps decode t s1 s3.
Proof. intros [n H] [m K]. exists (n + m)%nat. rewrite repeat_app, crun_app, H. exact K. Qed.
Lemma steps_one {T} (decode : bytes -> option T) t s s' : cstep decode s (Step t) = Some s' -> steps decode t s s'.
Proof. intros H. exists 1%nat. cbn [repeat crun]. now rewrite H. Qed.
Lemma steps_next {T} (decode : bytes -> option T) t s1 s2 s3 : cstep decode s1 (Step t) = Some s2 -> steps decode t s2 s3 -> steps decode t s1 s3.
Proof. intros H K. eapply steps_trans; [apply steps_one; exact H|exact K]. Qed.

(** [others t s s']: the tasks other than [t] are where they were. *)
Definition others {T} (t : nat) (s s' : cons T) : Prop := forall u, u <> t -> c_tasks s' u = c_tasks s u.
Lemma others_trans {T} t (s1 s2 s3 : cons T) : others t s1 s2 -> others t s2 s3 -> others t s1 s3.
Proof. intros H K u Hu. now rewrite K, H. Qed.
Lemma others_set {T} t (s s' : cons T) p : c_tasks s' = set_task (c_tasks s) t p -> others t s s'.
Proof. intros E u Hu. rewrite E. now apply set_task_other. Qed.
Lemma others_same {T} t (s s' : cons T) : c_tasks s' = c_tasks s -> others t s s'.
Proof. intros E u Hu. now rewrite E. Qed.

Lemma quiet_unlocked {T} (s : cons T) : lock_ok s -> quiet s -> c_lock s = None.
Proof.
  intros HL HQ. unfold lock_ok in HL. destruct (c_lock s) as [t|]; [|reflexivity].
  destruct HL as [(p & E & _) _]. rewrite (HQ t) in E. discriminate.
Qed.

(** From the permit check to the buffer lock. *)
Lemma run_check {T} (decode : bytes -> option T) t k (s : cons T) : c_tasks s t = Some (AtCheck k) ->
  c_open s = true \/ c_counter s < c_permits s ->
  exists s1 flows, steps decode t s s1 /\ c_tasks s1 t = Some (AtLock k) /\ others t s s1 /\
    c_permits s1 = c_permits s /\ c_buf s1 = c_buf s /\ c_lock s1 = c_lock s /\ c_queue s1 = c_queue s /\ c_open s1 = c_open s /\
    c_log s1 = c_log s ++ flows /\ returned flows = [].
Proof.
  intros HT HO.
  assert (HS : cstep decode s (Step t) = Some (goto s t (if c_permits s <=? c_counter s then AtFlow k (c_counter s) else AtLock k)))
    by (cbn [cstep]; now rewrite HT).
  destruct (N.leb_spec (c_permits s) (c_counter s)) as [HC|HC].
  - destruct HO as [HO|HO]; [|lia].
    set (s1 := goto s t (AtFlow k (c_counter s))) in *.
    set (s2 := goto (with_log s1 (Flowed ((c_permits s1 * 2 + (c_counter s - c_permits s1)) mod u32_max))) t (AtStore k)).
    set (s3 := goto (with_counter s2 0) t (AtLock k)).
    assert (H2 : cstep decode s1 (Step t) = Some s2).
    { cbn [cstep]. unfold s1 at 1. cbn [goto c_tasks]. lk. cbn [call_step]. change (c_open s1) with (c_open s). now rewrite HO. }
    assert (H3 : cstep decode s2 (Step t) = Some s3).
    { cbn [cstep]. unfold s2 at 1. cbn [goto with_log c_tasks]. lk. reflexivity. }
    exists s3. eexists [_]. split; [eapply steps_next; [exact HS|eapply steps_next; [exact H2|apply steps_one; exact H3]]|].
    split; [unfold s3; cbn; now lk|]. split; [intros u Hu; unfold s3, s2, s1; cbn; now lk|].
    split; [reflexivity|]. split; [reflexivity|]. split; [reflexivity|]. split; [reflexivity|]. split; [reflexivity|].
    split; [cbn; reflexivity|reflexivity].
  - exists (goto s t (AtLock k)), []. split; [apply steps_one; exact HS|]. split; [cbn; now lk|].
    split; [eapply others_set; reflexivity|]. rewrite app_nil_r. repeat (split; [reflexivity|]). reflexivity.
Qed.

(** Skipping events that are not messages. *)
Lemma run_skip {T} (decode : bytes -> option T) t k taken junk q : forall (s : cons T),
  c_tasks s t = Some (AtRecv k taken) -> c_queue s = junk ++ q -> forallb (fun i => negb (is_entry i)) junk = true ->
  exists s1, steps decode t s s1 /\ c_tasks s1 = c_tasks s /\ c_queue s1 = q /\ c_buf s1 = c_buf s /\ c_lock s1 = c_lock s /\
    c_log s1 = c_log s /\ c_open s1 = c_open s /\ c_permits s1 = c_permits s /\ c_counter s1 = c_counter s.
Proof.
  induction junk as [|i junk IH]; intros s HT HQ HJ.
  - exists s. split; [apply steps_refl|]. repeat (split; [reflexivity || exact HQ|]). reflexivity.
  - cbn in HJ. apply andb_true_iff in HJ. destruct HJ as [Hi HJ].
    assert (HS : cstep decode s (Step t) = Some (with_queue s (junk ++ q))).
    { cbn [cstep]. rewrite HT. cbn [call_step]. rewrite HQ. cbn [app]. destruct i; try reflexivity. discriminate. }
    destruct (IH (with_queue s (junk ++ q)) HT eq_refl HJ) as (s1 & H1 & H2 & H3 & H4 & H5 & H6 & H7 & H8 & H9).
    exists s1. split; [eapply steps_next; eauto|]. repeat (split; [assumption|]). assumption.
Qed.

(** The first message event of a queue. *)
Lemma split_queue q : exists junk r, q = junk ++ r /\ forallb (fun i => negb (is_entry i)) junk = true /\
  (r = [] \/ exists d r', r = InMessage d :: r').
Proof.
  induction q as [|i q (junk & r & E & HJ & HR)]; [exists [], []; auto|].
  destruct (is_entry i) eqn:Ei.
  - exists [], (i :: q). split; [reflexivity|]. split; [reflexivity|]. right. destruct i; try discriminate. eauto.
  - exists (i :: junk), r. split; [cbn; congruence|]. split; [cbn; now rewrite Ei|exact HR].
Qed.
Lemma junk_stream {T} (decode : bytes -> option T) junk : forallb (fun i => negb (is_entry i)) junk = true -> stream decode junk = [].
Proof.
  induction junk as [|i junk IH]; [reflexivity|]. cbn. intros H. apply andb_true_iff in H. destruct H as [Hi HJ].
  rewrite stream_cons, (IH HJ), app_nil_r. destruct i; try reflexivity. discriminate.
Qed.
