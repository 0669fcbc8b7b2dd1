(** C52: channel pairs are cross-wired FIFO queues. *)
From Verif Require Import Bytes Errors Channel.

Definition side_eqb (a b : side) : bool := match a, b with L, L | R, R => true | _, _ => false end.
Lemma side_eqb_spec a b : side_eqb a b = true <-> a = b.
Proof. destruct a, b; cbn; intuition congruence. Qed.

(** * Specification over what users see: calls and their results. *)
Definition trace A := list (ch_ev A * ch_obs A).
(** What end [x] sent successfully, and what it received, in order. *)
Fixpoint accepted {A} (x : side) (t : trace A) : list A :=
  match t with
  | [] => []
  | (ChSend y a, Sent) :: r => if side_eqb x y then a :: accepted x r else accepted x r
  | _ :: r => accepted x r
  end.
Fixpoint received {A} (x : side) (t : trace A) : list A :=
  match t with
  | [] => []
  | (ChRecv y, Received a) :: r => if side_eqb x y then a :: received x r else received x r
  | _ :: r => received x r
  end.
Definition was_dropped {A} (x : side) (t : trace A) : Prop := exists o, In (ChDrop x, o) t.

(** * Facts *)
Lemma other_neq x y : side_eqb x y = false -> y = other x.
Proof. destruct x, y; cbn; congruence. Qed.
Lemma ch_step_inv {A} (s : pair_st A) e s' o x : ch_step s e = Some (s', o) ->
  rx (other x) s ++ accepted x [(e, o)] = received (other x) [(e, o)] ++ rx (other x) s' /\
  (live x s' = false <-> live x s = false \/ e = ChDrop x).
Proof.
  destruct s as [c1 c2 ll lr].
  destruct e as [y a|y|y], x, y, ll, lr; cbn; try destruct c1; try destruct c2; intros H; inversion H; subst; cbn;
    rewrite ?app_nil_r; intuition (try discriminate; auto).
Qed.
Lemma accepted_cons {A} x (p : ch_ev A * ch_obs A) t : accepted x (p :: t) = accepted x [p] ++ accepted x t.
Proof. destruct p as [[y a|y|y] [|b|e|]]; cbn; auto. now destruct (side_eqb x y). Qed.
Lemma received_cons {A} x (p : ch_ev A * ch_obs A) t : received x (p :: t) = received x [p] ++ received x t.
Proof. destruct p as [[y a|y|y] [|b|e|]]; cbn; auto. now destruct (side_eqb x y). Qed.

Lemma ch_run_inv {A} x h : forall (s s' : pair_st A) t, ch_run s h = Some (s', t) ->
  rx (other x) s ++ accepted x t = received (other x) t ++ rx (other x) s' /\
  (live x s' = false <-> live x s = false \/ was_dropped x t).
Proof.
  induction h as [|e r IH]; intros s s' t H; cbn in H.
  - inversion H; subst. cbn. rewrite app_nil_r. split; [reflexivity|]. unfold was_dropped. firstorder.
  - destruct (ch_step s e) as [[s1 o]|] eqn:E; [|discriminate].
    destruct (ch_run s1 r) as [[s2 t2]|] eqn:E2; [|discriminate]. inversion H; subst.
    destruct (ch_step_inv _ _ _ _ x E) as [Q1 L1]. destruct (IH _ _ _ E2) as [Q2 L2]. split.
    + rewrite accepted_cons, received_cons, app_assoc, Q1, <- !app_assoc. now rewrite Q2.
    + rewrite L2, L1. unfold was_dropped. cbn. split.
      * intros [[H0|H0]|[o' H0]]; [auto|subst; right; eauto|right; eauto].
      * intros [H0|[o' [H0|H0]]]; [auto|inversion H0; auto|right; eauto].
Qed.
Lemma ch_run_inv0 {A} x h (s' : pair_st A) t : ch_run pair_init h = Some (s', t) ->
  accepted x t = received (other x) t ++ rx (other x) s' /\ (live x s' = false <-> was_dropped x t).
Proof.
  intros H. destruct (ch_run_inv x _ _ _ _ H) as [Q HL]. split.
  - destruct x; exact Q.
  - rewrite HL. destruct x; cbn; intuition discriminate.
Qed.

(** C52: under every interleaving, what one end receives is exactly what the
    other end sent, in order, each element once, up to what is still queued. In
    particular nobody receives its own elements. *)
Theorem C52_crosswise_fifo {A} (h : list (ch_ev A)) s t x :
  ch_run pair_init h = Some (s, t) -> exists queued, accepted x t = received (other x) t ++ queued.
Proof. intros H. destruct (ch_run_inv0 x _ _ _ H) as [Q _]. eauto. Qed.

(** C52: nothing queued is withheld: a receive succeeds whenever something sent
    has not been received, and then returns the oldest such element; it waits
    exactly when everything was received and the other end still exists; it fails
    with ChannelTerminated exactly when everything was received and the other
    end was dropped. *)
Theorem C52_receive {A} (h : list (ch_ev A)) s t x :
  ch_run pair_init h = Some (s, t) -> ~ was_dropped x t ->
  match ch_step s (ChRecv x) with
  | Some (_, Received a) => exists rest, accepted (other x) t = received x t ++ a :: rest
  | Some (_, Failed e) => e = ChannelTerminated /\ accepted (other x) t = received x t /\ was_dropped (other x) t
  | None => accepted (other x) t = received x t /\ ~ was_dropped (other x) t
  | Some (_, _) => False
  end.
Proof.
  intros H HD. destruct (ch_run_inv0 (other x) _ _ _ H) as [Q HL].
  destruct (ch_run_inv0 x _ _ _ H) as [_ HL']. replace (other (other x)) with x in Q by now destruct x.
  assert (HX : live x s = true) by (destruct (live x s); [reflexivity|]; exfalso; apply HD, HL'; reflexivity).
  unfold ch_step. rewrite HX. destruct (rx x s) as [|a q].
  - rewrite app_nil_r in Q. destruct (live (other x) s) eqn:EO; split; auto.
    + intros HW. apply HL in HW. congruence.
    + split; [auto|]. now apply HL.
  - eauto.
Qed.

(** C52: a send succeeds exactly while the other end exists, and fails with
    ChannelTerminated afterwards. *)
Theorem C52_send {A} (h : list (ch_ev A)) s t x a :
  ch_run pair_init h = Some (s, t) -> ~ was_dropped x t ->
  match ch_step s (ChSend x a) with
  | Some (_, Sent) => ~ was_dropped (other x) t
  | Some (_, Failed e) => e = ChannelTerminated /\ was_dropped (other x) t
  | _ => False
  end.
Proof.
  intros H HD. destruct (ch_run_inv0 (other x) _ _ _ H) as [_ HL].
  destruct (ch_run_inv0 x _ _ _ H) as [_ HL'].
  assert (HX : live x s = true) by (destruct (live x s); [reflexivity|]; exfalso; apply HD, HL'; reflexivity).
  unfold ch_step. rewrite HX. destruct (live (other x) s) eqn:EO.
  - intros HW. apply HL in HW. congruence.
  - split; [auto|]. now apply HL.
Qed.

Example C52_ex : exists s,
  ch_run pair_init [ChSend L 1; ChSend R 7; ChSend L 2; ChRecv R; ChDrop L; ChSend R 8; ChRecv R; ChRecv R]%nat
  = Some (s, [(ChSend L 1, Sent); (ChSend R 7, Sent); (ChSend L 2, Sent); (ChRecv R, Received 1); (ChDrop L, Dropped);
     (ChSend R 8, Failed ChannelTerminated); (ChRecv R, Received 2); (ChRecv R, Failed ChannelTerminated)]%nat).
Proof. eexists. reflexivity. Qed.

Print Assumptions C52_crosswise_fifo.
Print Assumptions C52_receive.
Print Assumptions C52_send.
