(** Invariants of the consumer model. *)
From Verif Require Import Bytes Errors Wire Proto Message Consumer SpecConsumer.
From Coq Require Import Permutation.
Open Scope N_scope.

Lemma set_task_same {T} f t (p : option (pc T)) : set_task f t p t = p.
Proof. unfold set_task. now rewrite Nat.eqb_refl. Qed.
Lemma set_task_other {T} f t (p : option (pc T)) u : u <> t -> set_task f t p u = f u.
Proof. intros H. unfold set_task. apply Nat.eqb_neq in H. now rewrite H. Qed.

Definition holding {T} (p : pc T) : bool := match p with AtRecv _ _ | AtCount _ _ => true | _ => false end.

(** The lock is held exactly by the task that is receiving or counting. *)
Definition lock_ok {T} (s : cons T) : Prop :=
  match c_lock s with
  | None => forall t p, c_tasks s t = Some p -> holding p = false
  | Some t => (exists p, c_tasks s t = Some p /\ holding p = true) /\
              forall u p, c_tasks s u = Some p -> u <> t -> holding p = false
  end.
Definition visible {T} (decode : bytes -> option T) (s : cons T) : list (cmsg T) :=
  returned (c_log s) ++ in_hand s ++ c_buf s ++ stream decode (c_queue s).

Lemma stream_app {T} (decode : bytes -> option T) a b : stream decode (a ++ b) = stream decode a ++ stream decode b.
Proof. apply flat_map_app. Qed.
Lemma returned_app {T} (a b : list (cobs T)) : returned (a ++ b) = returned a ++ returned b.
Proof. apply flat_map_app. Qed.
Lemma grants_app {T} (a b : list (cobs T)) : grants (a ++ b) = grants a ++ grants b.
Proof. apply flat_map_app. Qed.
Lemma arrivals_app a b : arrivals (a ++ b) = arrivals a ++ arrivals b.
Proof. apply flat_map_app. Qed.

Lemma ret_ok {T} (l : list (cobs T)) t k ms : returned (l ++ [Returned t k (Ok ms)]) = returned l ++ ms.
Proof. rewrite returned_app. cbn. now rewrite app_nil_r. Qed.
Lemma ret_nil {T} (l : list (cobs T)) o : match o with Returned _ _ (Ok _) => False | _ => True end -> returned (l ++ [o]) = returned l.
Proof. intros H. rewrite returned_app. destruct o as [n|t k [ms|e|]]; try contradiction; apply app_nil_r. Qed.
Lemma stream_cons {T} (decode : bytes -> option T) i q : stream decode (i :: q) = event_messages decode i ++ stream decode q.
Proof. reflexivity. Qed.
Lemma stream_nil {T} (decode : bytes -> option T) : stream decode [] = [].
Proof. reflexivity. Qed.
#[global] Arguments returned {T} log : simpl never.
#[global] Arguments stream {T} decode is : simpl never.
#[global] Arguments grants {T} log : simpl never.

Lemma crun_app {T} (decode : bytes -> option T) h1 : forall h2 s,
  crun decode s (h1 ++ h2) = match crun decode s h1 with Some s1 => crun decode s1 h2 | None => None end.
Proof.
  induction h1 as [|e h1 IH]; intros h2 s; cbn; [reflexivity|]. destruct (cstep decode s e); auto.
Qed.
(** Induction over runs from the front end. *)
Lemma crun_ind {T} (decode : bytes -> option T) (P : list cev -> cons T -> Prop) s0 :
  P [] s0 ->
  (forall h s e s', crun decode s0 h = Some s -> P h s -> cstep decode s e = Some s' -> P (h ++ [e]) s') ->
  forall h s, crun decode s0 h = Some s -> P h s.
Proof.
  intros H0 HS h. induction h as [|e h IH] using rev_ind; intros s H.
  - cbn in H. now inversion H; subst.
  - rewrite crun_app in H. destruct (crun decode s0 h) as [s1|] eqn:E; [|discriminate].
    cbn in H. destruct (cstep decode s1 e) as [s2|] eqn:E2; [|discriminate]. inversion H; subst. eapply HS; eauto.
Qed.

Ltac lk :=
  repeat match goal with
  | H : context [set_task _ ?t _ ?t] |- _ => rewrite set_task_same in H
  | |- context [set_task _ ?t _ ?t] => rewrite set_task_same
  | H : ?u <> ?t, K : context [set_task _ ?t _ ?u] |- _ => rewrite (set_task_other _ _ _ _ H) in K
  | H : ?u <> ?t |- context [set_task _ ?t _ ?u] => rewrite (set_task_other _ _ _ _ H)
  end.

(** Replacing the state of task [t]: effect on [lock_ok]. *)
Lemma lock_keep {T} (s : cons T) t p q : lock_ok s -> c_tasks s t = Some p -> holding p = false ->
  forall s', c_lock s' = c_lock s -> c_tasks s' = set_task (c_tasks s) t (Some q) -> holding q = false -> lock_ok s'.
Proof.
  intros HL HT HP s' EL ET HQ. unfold lock_ok in *. rewrite EL, ET. destruct (c_lock s) as [u|].
  - destruct HL as [(p' & E & HH) HO]. assert (u <> t) by (intros ->; congruence). lk. split; [eauto|].
    intros v r HV HN. destruct (Nat.eq_dec v t) as [->|NE]; lk; [inversion HV; subst; auto|eauto].
  - intros v r HV. destruct (Nat.eq_dec v t) as [->|NE]; lk; [inversion HV; subst; auto|eauto].
Qed.
Lemma lock_start {T} (s : cons T) t q : lock_ok s -> c_tasks s t = None ->
  forall s', c_lock s' = c_lock s -> c_tasks s' = set_task (c_tasks s) t (Some q) -> holding q = false -> lock_ok s'.
Proof.
  intros HL HT s' EL ET HQ. unfold lock_ok in *. rewrite EL, ET. destruct (c_lock s) as [u|].
  - destruct HL as [(p' & E & HH) HO]. assert (u <> t) by (intros ->; congruence). lk. split; [eauto|].
    intros v r HV HN. destruct (Nat.eq_dec v t) as [->|NE]; lk; [inversion HV; subst; auto|eauto].
  - intros v r HV. destruct (Nat.eq_dec v t) as [->|NE]; lk; [inversion HV; subst; auto|eauto].
Qed.
Lemma lock_leave {T} (s : cons T) t p : lock_ok s -> c_tasks s t = Some p -> holding p = false ->
  forall s', c_lock s' = c_lock s -> c_tasks s' = set_task (c_tasks s) t None -> lock_ok s'.
Proof.
  intros HL HT HP s' EL ET. unfold lock_ok in *. rewrite EL, ET. destruct (c_lock s) as [u|].
  - destruct HL as [(p' & E & HH) HO]. assert (u <> t) by (intros ->; congruence). lk. split; [eauto|].
    intros v r HV HN. destruct (Nat.eq_dec v t) as [->|NE]; lk; [discriminate|eauto].
  - intros v r HV. destruct (Nat.eq_dec v t) as [->|NE]; lk; [discriminate|eauto].
Qed.
Lemma lock_take {T} (s : cons T) t p q : lock_ok s -> c_lock s = None -> c_tasks s t = Some p ->
  forall s', c_lock s' = Some t -> c_tasks s' = set_task (c_tasks s) t (Some q) -> holding q = true -> lock_ok s'.
Proof.
  intros HL HN HT s' EL ET HQ. unfold lock_ok in *. rewrite HN in HL. rewrite EL, ET. split; [lk; eauto|].
  intros v r HV HU. lk. eauto.
Qed.
Lemma lock_holder {T} (s : cons T) t p : lock_ok s -> c_tasks s t = Some p -> holding p = true -> c_lock s = Some t.
Proof.
  intros HL HT HP. unfold lock_ok in HL. destruct (c_lock s) as [u|].
  - destruct HL as [_ HO]. destruct (Nat.eq_dec t u) as [->|NE]; [reflexivity|]. specialize (HO _ _ HT NE). congruence.
  - specialize (HL _ _ HT). congruence.
Qed.
Lemma lock_release {T} (s : cons T) t p : lock_ok s -> c_tasks s t = Some p -> holding p = true ->
  forall s', c_lock s' = None -> c_tasks s' = set_task (c_tasks s) t None -> lock_ok s'.
Proof.
  intros HL HT HP s' EL ET. pose proof (lock_holder _ _ _ HL HT HP) as EH. unfold lock_ok in *. rewrite EH in HL. rewrite EL, ET.
  intros v r HV. destruct (Nat.eq_dec v t) as [->|NE]; lk; [discriminate|]. destruct HL as [_ HO]. eauto.
Qed.
Lemma lock_move {T} (s : cons T) t p q : lock_ok s -> c_tasks s t = Some p -> holding p = true ->
  forall s', c_lock s' = c_lock s -> c_tasks s' = set_task (c_tasks s) t (Some q) -> holding q = true -> lock_ok s'.
Proof.
  intros HL HT HP s' EL ET HQ. pose proof (lock_holder _ _ _ HL HT HP) as EH. unfold lock_ok in *. rewrite EH in *. rewrite EL, ET.
  split; [lk; eauto|]. intros v r HV HU. lk. destruct HL as [_ HO]. eauto.
Qed.
Lemma lock_same {T} (s : cons T) : lock_ok s ->
  forall s', c_lock s' = c_lock s -> c_tasks s' = c_tasks s -> lock_ok s'.
Proof. intros HL s' EL ET. unfold lock_ok in *. now rewrite EL, ET. Qed.

Lemma free_hand {T} (s : cons T) : c_lock s = None -> in_hand s = [].
Proof. unfold in_hand. intros ->. reflexivity. Qed.
Lemma my_hand {T} (s : cons T) t p : lock_ok s -> c_tasks s t = Some p -> holding p = true -> in_hand s = pc_hand p.
Proof. intros HL HT HP. unfold in_hand. now rewrite (lock_holder _ _ _ HL HT HP), HT. Qed.
Lemma other_hand {T} (s s' : cons T) t p q : lock_ok s -> c_tasks s t = p ->
  c_lock s' = c_lock s -> c_tasks s' = set_task (c_tasks s) t q ->
  match p with Some x => holding x = false | None => True end ->
  match q with Some x => holding x = false | None => True end -> in_hand s' = in_hand s.
Proof.
  intros HL HT EL ET HP HQ. unfold in_hand. rewrite EL, ET. unfold lock_ok in HL. destruct (c_lock s) as [u|]; [|reflexivity].
  destruct HL as [(p' & E & HH) _]. assert (u <> t).
  { intros ->. rewrite HT in E. subst. congruence. }
  now lk.
Qed.

Ltac oh := eapply other_hand; [eassumption|eassumption|reflexivity|reflexivity|cbn; auto|cbn; auto].

Lemma step_lock {T} (decode : bytes -> option T) s e s' : lock_ok s -> cstep decode s e = Some s' -> lock_ok s'.
Proof.
  intros HL HS. destruct e as [t k|t|t|i|]; cbn in HS.
  - destruct (c_tasks s t) eqn:ET; [discriminate|]. inversion HS; subst. eapply lock_start; try eassumption; try reflexivity; try (symmetry; eassumption).
  - destruct (c_tasks s t) as [p|] eqn:ET; [|discriminate]. destruct p as [k|k c|k|k|k taken|k out]; cbn in HS.
    + inversion HS; subst. eapply lock_keep; try eassumption; try reflexivity; try (symmetry; eassumption). destruct (_ <=? _); reflexivity.
    + destruct (c_open s); inversion HS; subst; [eapply lock_keep; try eassumption; try reflexivity; try (symmetry; eassumption)|eapply lock_leave; try eassumption; try reflexivity; try (symmetry; eassumption)].
    + inversion HS; subst. eapply lock_keep; try eassumption; try reflexivity; try (symmetry; eassumption).
    + destruct k as [|n].
      * destruct (c_lock s) eqn:EL; [discriminate|]. destruct (c_buf s); inversion HS; subst.
        -- eapply lock_take; try eassumption; try reflexivity; try (symmetry; eassumption).
        -- eapply lock_leave; try eassumption; try reflexivity; try (symmetry; eassumption).
      * destruct (c_lock s) eqn:EL; [discriminate|]. inversion HS; subst. eapply lock_take; try eassumption; try reflexivity; try (symmetry; eassumption). now destruct (_ =? _)%nat.
    + destruct (c_queue s) as [|i q]; [destruct (c_open s); inversion HS; subst; eapply lock_release; try eassumption; try reflexivity; try (symmetry; eassumption)|].
      destruct i; try (inversion HS; subst; eapply lock_same; try eassumption; try reflexivity; try (symmetry; eassumption); fail).
      destruct (unpack decode d) as [ms|e|]; [|inversion HS; subst; eapply lock_release; try eassumption; try reflexivity; try (symmetry; eassumption)|inversion HS; subst; eapply lock_release; try eassumption; try reflexivity; try (symmetry; eassumption)].
      destruct k as [|n]; [destruct ms as [|m r]|]; inversion HS; subst;
        [eapply lock_release; try eassumption; try reflexivity; try (symmetry; eassumption)|eapply lock_move; try eassumption; try reflexivity; try (symmetry; eassumption)|eapply lock_move; try eassumption; try reflexivity; try (symmetry; eassumption)].
    + inversion HS; subst. eapply lock_release; try eassumption; try reflexivity; try (symmetry; eassumption).
  - destruct (c_tasks s t) as [p|] eqn:ET; [|discriminate]. destruct p; inversion HS; subst;
      [eapply lock_leave; try eassumption; try reflexivity; try (symmetry; eassumption)|eapply lock_leave; try eassumption; try reflexivity; try (symmetry; eassumption)|eapply lock_release; try eassumption; try reflexivity; try (symmetry; eassumption)].
  - destruct (c_open s); inversion HS; subst. eapply lock_same; try eassumption; try reflexivity; try (symmetry; eassumption).
  - inversion HS; subst. eapply lock_same; try eassumption; try reflexivity; try (symmetry; eassumption).
Qed.

(** [part_of a b]: [b] is [a] up to order, minus some elements. *)
Definition part_of {A} (a b : list A) : Prop := exists lost, Permutation a (b ++ lost).
Lemma part_refl {A} (a : list A) : part_of a a.
Proof. exists []. now rewrite app_nil_r. Qed.
Lemma part_eq {A} (a b : list A) : a = b -> part_of a b.
Proof. intros ->. apply part_refl. Qed.
Lemma part_perm {A} (a b : list A) : Permutation a b -> part_of a b.
Proof. intros H. exists []. now rewrite app_nil_r. Qed.
Lemma part_trans {A} (a b c : list A) : part_of a b -> part_of b c -> part_of a c.
Proof. intros [l H] [m K]. exists (m ++ l). rewrite H, K, <- app_assoc. reflexivity. Qed.
Lemma part_app {A} (a a' b b' : list A) : part_of a a' -> part_of b b' -> part_of (a ++ b) (a' ++ b').
Proof.
  intros [l H] [m K]. exists (l ++ m). rewrite H, K. rewrite <- !app_assoc. apply Permutation_app_head.
  rewrite !app_assoc. apply Permutation_app_tail. apply Permutation_app_comm.
Qed.
Lemma part_drop {A} (a b : list A) : part_of (a ++ b) b.
Proof. exists a. apply Permutation_app_comm. Qed.
Lemma part_NoDup {A} (a b : list A) : part_of a b -> NoDup a -> NoDup b.
Proof.
  intros [l H] HN. apply (Permutation_NoDup H) in HN. clear H. induction b as [|x b IH]; [constructor|].
  inversion HN; subst. constructor; [|auto]. intros HI. apply H1. apply in_or_app. now left.
Qed.
Lemma part_In {A} (a b : list A) x : part_of a b -> In x b -> In x a.
Proof. intros [l H] HI. apply (Permutation_in x (Permutation_sym H)). apply in_or_app. now left. Qed.

Lemma pop_perm {T} n (v : list (cmsg T)) : Permutation v (fst (pop_up_to n v) ++ snd (pop_up_to n v)).
Proof.
  cbn. transitivity (firstn n (rev v) ++ skipn n (rev v)).
  - rewrite firstn_skipn. apply Permutation_rev.
  - apply Permutation_app_head, Permutation_rev.
Qed.

Lemma event_other {T} (decode : bytes -> option T) i : (forall d, i <> InMessage d) -> event_messages decode i = [].
Proof. destruct i; cbn; auto. intros H. now destruct (H d). Qed.

Definition arr1 (e : cev) : list inbound := match e with Arrive i => [i] | _ => [] end.
Lemma vis_same {T} (decode : bytes -> option T) (s s' : cons T) :
  returned (c_log s') = returned (c_log s) -> in_hand s' = in_hand s -> c_buf s' = c_buf s -> c_queue s' = c_queue s ->
  visible decode s' = visible decode s.
Proof. unfold visible. now intros -> -> -> ->. Qed.

(** Nothing appears from nowhere: every step keeps the visible messages, adds the
    arrived ones, and may lose some. *)
Lemma step_part {T} (decode : bytes -> option T) s e s' : lock_ok s -> cstep decode s e = Some s' ->
  part_of (visible decode s ++ stream decode (arr1 e)) (visible decode s').
Proof.
  intros HL HS. pose proof (step_lock _ _ _ _ HL HS) as HL'. destruct e as [t k|t|t|i|]; cbn in HS; cbn [arr1]; rewrite ?stream_nil, ?app_nil_r.
  - destruct (c_tasks s t) eqn:ET; [discriminate|]. inversion HS; subst. apply part_eq. symmetry. apply vis_same; try reflexivity.
    oh.
  - destruct (c_tasks s t) as [p|] eqn:ET; [|discriminate]. destruct p as [k|k c|k|k|k taken|k out]; cbn in HS.
    + inversion HS; subst. apply part_eq. symmetry. apply vis_same; try reflexivity.
      oh. destruct (_ <=? _); reflexivity.
    + apply part_eq. symmetry. destruct (c_open s); inversion HS; subst; apply vis_same; try reflexivity;
        try (apply ret_nil; exact I);
        oh.
    + inversion HS; subst. apply part_eq. symmetry. apply vis_same; try reflexivity.
      oh.
    + destruct k as [|n].
      * destruct (c_lock s) eqn:EL; [discriminate|]. unfold visible. rewrite (free_hand s EL).
        destruct (c_buf s) as [|m r] eqn:EB; inversion HS; subst; apply part_eq; cbn.
        -- unfold in_hand. cbn. lk. cbn. now rewrite EB.
        -- rewrite ret_ok. unfold in_hand. cbn. now rewrite <- app_assoc.
      * destruct (c_lock s) eqn:EL; [discriminate|]. unfold visible. rewrite (free_hand s EL). inversion HS; subst.
        cbn [goto with_lock with_buf c_log c_buf c_queue]. unfold in_hand. cbn [goto with_lock with_buf c_lock c_tasks]. lk.
        replace (pc_hand _) with (firstn n (rev (c_buf s))) by (destruct (_ =? _)%nat; reflexivity).
        apply part_perm. apply Permutation_app_head. cbn [app]. rewrite app_assoc. apply Permutation_app_tail. apply (pop_perm n).
    + pose proof (my_hand _ _ _ HL ET eq_refl) as HH. cbn in HH. unfold visible at 1. rewrite HH.
      destruct (c_queue s) as [|i q] eqn:EQ.
      * destruct (c_open s); inversion HS; subst. unfold visible. cbn. unfold in_hand. cbn. rewrite EQ, ret_nil by exact I.
        apply part_app; [apply part_refl|]. apply part_drop.
      * assert (HO : event_messages decode i = [] -> s' = with_queue s q ->
                    part_of (returned (c_log s) ++ taken ++ c_buf s ++ stream decode (i :: q)) (visible decode s')).
        { intros E0 ->. unfold visible. apply part_eq. rewrite stream_cons, E0. unfold in_hand in *. cbn. now rewrite HH. }
        destruct i; try (apply HO; [reflexivity|now inversion HS]).
        rewrite stream_cons; cbn [event_messages]. destruct (unpack decode d) as [ms|e|].
        -- destruct k as [|n]; [destruct ms as [|m r]|]; inversion HS; subst s'; unfold visible; cbn -[pop_up_to].
           ++ unfold in_hand. cbn. rewrite ret_nil by exact I. apply part_app; [apply part_refl|]. apply part_drop.
           ++ unfold in_hand. cbn. rewrite (lock_holder _ _ _ HL ET eq_refl). lk. cbn.
              apply part_app; [apply part_refl|]. apply (part_trans _ (c_buf s ++ m :: r ++ stream decode q)); [apply part_drop|].
              apply part_perm. rewrite <- app_assoc. cbn. symmetry. apply Permutation_middle.
           ++ unfold in_hand. cbn -[pop_up_to]. rewrite (lock_holder _ _ _ HL ET eq_refl). lk. cbn [pc_hand].
              apply part_app; [apply part_refl|]. rewrite <- app_assoc. apply part_app; [apply part_refl|].
              rewrite !app_assoc. apply part_app; [|apply part_refl].
              apply (part_trans _ (c_buf s ++ fst (pop_up_to (n - length taken) ms))).
              ** apply part_app; [apply part_refl|]. exists (snd (pop_up_to (n - length taken) ms)). apply pop_perm.
              ** apply part_perm. apply Permutation_app_comm.
        -- inversion HS; subst. unfold visible. cbn. unfold in_hand. cbn. rewrite ret_nil by exact I.
           apply part_app; [apply part_refl|]. apply part_drop.
        -- inversion HS; subst. unfold visible. cbn. unfold in_hand. cbn. rewrite ret_nil by exact I.
           apply part_app; [apply part_refl|]. apply part_drop.
    + pose proof (my_hand _ _ _ HL ET eq_refl) as HH. cbn in HH. unfold visible at 1. rewrite HH. inversion HS; subst.
      unfold visible. cbn. unfold in_hand. cbn. rewrite ret_ok. apply part_eq. now rewrite <- app_assoc.
  - destruct (c_tasks s t) as [p|] eqn:ET; [|discriminate]. destruct p as [k|k c|k|k|k taken|k out]; inversion HS; subst.
    + apply part_eq. symmetry. apply vis_same; try reflexivity. oh.
    + apply part_eq. symmetry. apply vis_same; try reflexivity. oh.
    + pose proof (my_hand _ _ _ HL ET eq_refl) as HH. cbn in HH. unfold visible. rewrite HH. unfold in_hand. cbn.
      apply part_app; [apply part_refl|]. apply part_drop.
  - destruct (c_open s); inversion HS; subst. unfold visible, in_hand. cbn. rewrite stream_app, !app_assoc. apply part_refl.
  - inversion HS; subst. apply part_eq. reflexivity.
Qed.

Lemma init_lock {T} p : lock_ok (@cons_init T p).
Proof. intros t q H. discriminate. Qed.
Lemma run_lock {T} (decode : bytes -> option T) h : forall s s', lock_ok s -> crun decode s h = Some s' -> lock_ok s'.
Proof.
  induction h as [|e h IH]; intros s s' HL H; cbn in H; [now inversion H; subst|].
  destruct (cstep decode s e) eqn:E; [|discriminate]. eapply IH; [|exact H]. eapply step_lock; eauto.
Qed.
Lemma run_part {T} (decode : bytes -> option T) h : forall s s', lock_ok s -> crun decode s h = Some s' ->
  part_of (visible decode s ++ stream decode (arrivals h)) (visible decode s').
Proof.
  induction h as [|e h IH]; intros s s' HL H; cbn in H.
  - inversion H; subst. cbn. rewrite stream_nil, app_nil_r. apply part_refl.
  - destruct (cstep decode s e) as [s1|] eqn:E; [|discriminate].
    pose proof (step_part _ _ _ _ HL E) as HP. pose proof (step_lock _ _ _ _ HL E) as HL1. specialize (IH _ _ HL1 H).
    eapply part_trans; [|exact IH]. change (arrivals (e :: h)) with (arr1 e ++ arrivals h). rewrite stream_app, app_assoc.
    apply part_app; [exact HP|apply part_refl].
Qed.

(** * next_message only: nothing is lost and order is kept. *)
Definition nm_ok {T} (s : cons T) : Prop :=
  (forall t p, c_tasks s t = Some p -> pc_kind p = NextMessage) /\
  (forall t taken, c_tasks s t = Some (AtRecv NextMessage taken) -> taken = [] /\ c_buf s = []) /\
  (forall t out, c_tasks s t = Some (AtCount NextMessage out) -> length out = 1%nat).

Lemma nm_set {T} (s s' : cons T) t q : nm_ok s -> c_tasks s' = set_task (c_tasks s) t q ->
  (forall x, q = Some x -> pc_kind x = NextMessage) ->
  (forall u taken, u <> t -> c_tasks s u = Some (AtRecv NextMessage taken) -> c_buf s' = c_buf s) ->
  match q with Some (AtRecv _ taken) => taken = [] /\ c_buf s' = [] | Some (AtCount _ out) => length out = 1%nat | _ => True end ->
  nm_ok s'.
Proof.
  intros (H1 & H2 & H3) ET HK HB HQ. unfold nm_ok. rewrite ET. split; [|split].
  - intros u p HU. destruct (Nat.eq_dec u t) as [->|NE]; lk; eauto.
  - intros u l HU. destruct (Nat.eq_dec u t) as [->|NE]; lk; [subst q; auto|].
    destruct (H2 _ _ HU) as [-> HE]. split; [reflexivity|]. rewrite (HB _ _ NE HU). exact HE.
  - intros u l HU. destruct (Nat.eq_dec u t) as [->|NE]; lk; [subst q; auto|eauto].
Qed.
Ltac nms := eapply nm_set; try eassumption; try reflexivity; try (intros x Hx; inversion Hx; reflexivity); try (intros x Hx; now inversion Hx); try exact I.
Lemma step_nm {T} (decode : bytes -> option T) s e s' : lock_ok s -> nm_ok s -> cstep decode s e = Some s' ->
  (forall t k, e = Start t k -> k = NextMessage) -> nm_ok s' /\ visible decode s' = visible decode s ++ stream decode (arr1 e).
Proof.
  intros HL HN HS HE. pose proof HN as (HK & HR & HC).
  destruct e as [t k|t|t|i|]; cbn in HS; cbn [arr1]; rewrite ?stream_nil, ?app_nil_r.
  - destruct (c_tasks s t) eqn:ET; [discriminate|]. inversion HS; subst. pose proof (HE t k eq_refl) as ->. split.
    + nms.
    + apply vis_same; try reflexivity. oh.
  - destruct (c_tasks s t) as [p|] eqn:ET; [|discriminate]. pose proof (HK _ _ ET) as HKt.
    destruct p as [k|k c|k|k|k taken|k out]; cbn in HKt; subst k; cbn in HS.
    + inversion HS; subst. split.
      * nms; [intros x Hx; inversion Hx; destruct (_ <=? _); reflexivity|]. destruct (_ <=? _); exact I.
      * apply vis_same; try reflexivity. oh. destruct (_ <=? _); reflexivity.
    + destruct (c_open s); inversion HS; subst; split;
        try (nms; fail);
        (apply vis_same; try reflexivity; [apply ret_nil; exact I|]; oh).
    + inversion HS; subst. split.
      * nms.
      * apply vis_same; try reflexivity. oh.
    + destruct (c_lock s) eqn:EL; [discriminate|].
      assert (HX : forall u l, c_tasks s u = Some (AtRecv NextMessage l) -> False).
      { intros u l HU. unfold lock_ok in HL. rewrite EL in HL. specialize (HL _ _ HU). discriminate. }
      destruct (c_buf s) as [|m r] eqn:EB; inversion HS; subst; split.
      * nms. cbn. auto.
      * unfold visible. rewrite (free_hand s EL). unfold in_hand. cbn. lk. cbn. now rewrite EB.
      * nms. intros u l _ HU. destruct (HX _ _ HU).
      * unfold visible. rewrite (free_hand s EL). unfold in_hand. cbn. rewrite ret_ok, EB. cbn. now rewrite <- app_assoc.
    + destruct (HR _ _ ET) as [-> EB]. pose proof (my_hand _ _ _ HL ET eq_refl) as HH. cbn in HH.
      pose proof (lock_holder _ _ _ HL ET eq_refl) as EL.
      assert (HX : forall u l, u <> t -> c_tasks s u = Some (AtRecv NextMessage l) -> False).
      { intros u l NE HU. unfold lock_ok in HL. rewrite EL in HL. destruct HL as [_ HO]. specialize (HO _ _ HU NE). discriminate. }
      unfold visible at 2. rewrite HH, EB. cbn [app]. destruct (c_queue s) as [|i q] eqn:EQ.
      * destruct (c_open s); inversion HS; subst. split; [nms|].
        unfold visible, in_hand. cbn. rewrite EB, EQ, ret_nil by exact I. reflexivity.
      * assert (HO : event_messages decode i = [] -> s' = with_queue s q -> nm_ok s' /\ visible decode s' = returned (c_log s) ++ stream decode (i :: q)).
        { intros E0 ->. split; [exact HN|]. unfold visible. rewrite stream_cons, E0. unfold in_hand in *. cbn. now rewrite HH, EB. }
        destruct i; try (apply HO; [reflexivity|now inversion HS]). clear HO.
        rewrite stream_cons; cbn [event_messages]. destruct (unpack decode d) as [ms|e|].
        -- destruct ms as [|m r]; inversion HS; subst; split.
           ++ nms.
           ++ unfold visible, in_hand. cbn. rewrite ret_nil, EB by exact I. reflexivity.
           ++ nms.
              intros u l NE HU. destruct (HX _ _ NE HU).
           ++ unfold visible, in_hand. cbn. rewrite EL. lk. cbn. now rewrite EB.
        -- inversion HS; subst. split; [nms|].
           unfold visible, in_hand. cbn. rewrite ret_nil, EB by exact I. reflexivity.
        -- inversion HS; subst. split; [nms|].
           unfold visible, in_hand. cbn. rewrite ret_nil, EB by exact I. reflexivity.
    + pose proof (my_hand _ _ _ HL ET eq_refl) as HH. cbn in HH. inversion HS; subst s'. split.
      * nms.
      * unfold visible at 2. rewrite HH. unfold visible, in_hand. cbn. rewrite ret_ok. now rewrite <- app_assoc.
  - destruct (c_tasks s t) as [p|] eqn:ET; [|discriminate]. pose proof (HK _ _ ET) as HKt.
    destruct p as [k|k c|k|k|k taken|k out]; cbn in HKt; try subst k; inversion HS; subst;
      (split; [nms|]).
    + apply vis_same; try reflexivity. oh.
    + apply vis_same; try reflexivity. oh.
    + destruct (HR _ _ ET) as [-> EB]. pose proof (my_hand _ _ _ HL ET eq_refl) as HH. cbn in HH.
      unfold visible at 2. rewrite HH. unfold visible, in_hand. cbn. reflexivity.
  - destruct (c_open s); inversion HS; subst. split; [exact HN|]. unfold visible, in_hand. cbn. now rewrite stream_app, !app_assoc.
  - inversion HS; subst. split; [exact HN|reflexivity].
Qed.
Lemma init_nm {T} p : nm_ok (@cons_init T p).
Proof. split; [|split]; intros; discriminate. Qed.
Lemma run_nm {T} (decode : bytes -> option T) h : forall s s', lock_ok s -> nm_ok s -> only_next_message h ->
  crun decode s h = Some s' -> nm_ok s' /\ visible decode s' = visible decode s ++ stream decode (arrivals h).
Proof.
  induction h as [|e h IH]; intros s s' HL HN HO H; cbn in H.
  - inversion H; subst. cbn. rewrite stream_nil, app_nil_r. auto.
  - destruct (cstep decode s e) as [s1|] eqn:E; [|discriminate].
    pose proof (step_lock _ _ _ _ HL E) as HL1. destruct (step_nm _ _ _ _ HL HN E) as [HN1 HV].
    { intros t k ->. apply (HO t). now left. }
    destruct (IH s1 s' HL1 HN1 (fun t k Hk => HO t k (or_intror Hk)) H) as [HN2 HV2].
    split; [exact HN2|]. change (arrivals (e :: h)) with (arr1 e ++ arrivals h). now rewrite HV2, HV, stream_app, app_assoc.
Qed.
