(** C47 (token caching) and C48 (computed expiry is late). *)
From Verif Require Import Bytes Errors Auth.
Open Scope Z_scope.

(** * Specification: what a history of endpoint answers says about the token.
    [last_token rng h]: value and expiry of the last token granted in [h], the
    expiry counted from the arrival of the grant. *)
Definition grant_of (rng : Z * Z) (e : auth_ev) : option (bytes * Z) :=
  match e with
  | Answer _ (Granted v secs) now =>
      let exp := now + secs * 1000000000 in
      if (fst rng <=? exp) && (exp <=? snd rng) then Some (v, exp) else None
  | _ => None
  end.
Fixpoint last_token (rng : Z * Z) (h : list auth_ev) : option (bytes * Z) :=
  match h with
  | [] => None
  | e :: r => match last_token rng r with Some x => Some x | None => grant_of rng e end
  end.
(** No unexpired token at time [now]. *)
Definition none_valid (tok : option (bytes * Z)) (now : Z) : Prop :=
  forall v exp, tok = Some (v, exp) -> exp < now.

(** * Facts *)
Definition cached (s : auth_st) : option (bytes * Z) :=
  match cache s with Some t => Some (tk_value t, tk_expires t) | None => None end.

Lemma step_cache rng s e s' o : auth_step rng s e = Some (s', o) ->
  cached s' = match grant_of rng e with Some x => Some x | None => cached s end.
Proof.
  unfold auth_step, cached, grant_of, add_seconds. destruct e as [i now|i [v secs|text] now|i]; destruct (holder s) as [j|]; try discriminate.
  - destruct (cache s) as [t|] eqn:EC; [destruct (is_expired now t)|]; intros H; inversion H; subst; cbn; now rewrite ?EC.
  - destruct (i =? j)%nat; [|discriminate]. destruct ((_ <=? _) && _); intros H; inversion H; subst; reflexivity.
  - destruct (i =? j)%nat; [|discriminate]. intros H; inversion H; subst; reflexivity.
  - destruct (i =? j)%nat; [|discriminate]. intros H; inversion H; subst; reflexivity.
Qed.
Lemma run_cache rng h : forall s s' o, auth_run rng s h = Some (s', o) ->
  cached s' = match last_token rng h with Some x => Some x | None => cached s end.
Proof.
  induction h as [|e r IH]; intros s s' o H; cbn in *; [inversion H; now subst|].
  destruct (auth_step rng s e) as [[s1 o1]|] eqn:E; [|discriminate].
  destruct (auth_run rng s1 r) as [[s2 o2]|] eqn:E2; [|discriminate]. inversion H; subst.
  rewrite (IH _ _ _ E2). destruct (last_token rng r); [reflexivity|]. now apply step_cache in E.
Qed.
Lemma run_cache0 rng h s o : auth_run rng auth_init h = Some (s, o) -> cached s = last_token rng h.
Proof. intros H. apply run_cache in H. rewrite H. now destruct (last_token rng h). Qed.

(** C47: after every history, a call contacts the endpoint exactly when the last
    token granted has expired (or there is none); otherwise it returns that token. *)
Theorem C47_fetch_iff_no_valid_token rng h s o i now s' out :
  auth_run rng auth_init h = Some (s, o) -> auth_step rng s (Call i now) = Some (s', out) ->
  (In (Fetch i) out <-> none_valid (last_token rng h) now) /\
  (forall r, In (Return i r) out <-> exists v exp, last_token rng h = Some (v, exp) /\ now <= exp /\ r = Ok v).
Proof.
  intros HR HS. apply run_cache0 in HR. unfold cached in HR. rewrite <- HR. clear HR h.
  unfold auth_step in HS. destruct (holder s); [discriminate|]. unfold none_valid.
  destruct (cache s) as [[v exp]|].
  - unfold is_expired in HS. cbn in *. destruct (Z.ltb_spec exp now) as [L|L]; inversion HS; subst; cbn; split.
    + split; auto. intros _ v0 e0 H; inversion H; subst; lia.
    + intros r. split; [intros [H|[]]; discriminate|]. intros (v0 & e0 & H & L' & _). inversion H; subst. lia.
    + split; [intros [H|[]]; discriminate|]. intros H. specialize (H v exp eq_refl). lia.
    + intros r. split; [intros [H|[]]; inversion H; eauto|]. intros (v0 & e0 & H & L' & ->). inversion H; subst. auto.
  - inversion HS; subst; cbn. split.
    + split; auto. intros _ v e H; discriminate.
    + intros r. split; [intros [H|[]]; discriminate|]. intros (v0 & e0 & H & _). discriminate.
Qed.

(** C47: a refused or failed request returns the error, and every next call
    behaves as if it had not been made. *)
Theorem C47_failed_request_keeps_token rng h s o i text now s' out :
  auth_run rng auth_init h = Some (s, o) -> auth_step rng s (Answer i (Refused text) now) = Some (s', out) ->
  out = [Return i (Err (AuthenticationFailed text))] /\
  (forall j t, option_map snd (auth_step rng s' (Call j t)) =
     Some (match last_token rng h with
           | Some (v, exp) => if exp <? t then [Fetch j] else [Return j (Ok v)]
           | None => [Fetch j] end)).
Proof.
  intros HR HS. apply run_cache0 in HR. unfold cached in HR. rewrite <- HR. clear HR h.
  unfold auth_step in HS. destruct (holder s) as [k|] eqn:EH; [|discriminate].
  destruct (i =? k)%nat; [|discriminate]. inversion HS; subst. split; [reflexivity|].
  intros j t. cbn. destruct (cache s) as [[v exp]|]; [|reflexivity]. unfold is_expired. cbn.
  now destruct (exp <? t).
Qed.

(** C47: a caller waiting for the endpoint excludes all others until its answer
    arrives or it gives up. *)
Theorem C47_fetch_excludes_others rng s i now s' e s'' o :
  auth_step rng s (Call i now) = Some (s', [Fetch i]) -> auth_step rng s' e = Some (s'', o) ->
  (exists r t, e = Answer i r t) \/ e = Cancel i.
Proof.
  unfold auth_step at 1. destruct (holder s); [discriminate|]. intros H.
  assert (EH : holder s' = Some i).
  { destruct (cache s) as [t|]; [destruct (is_expired now t)|]; inversion H; subst; reflexivity. }
  unfold auth_step. rewrite EH. destruct e as [j n|j [v secs|text] n|j]; try discriminate;
    destruct (Nat.eqb_spec j i); try discriminate; subst; eauto.
Qed.

Fixpoint calls_before (exp : Z) (h : list auth_ev) : Prop :=
  match h with
  | [] => True
  | Call _ now :: r => now <= exp /\ calls_before exp r
  | _ :: r => calls_before exp r
  end.
Lemma serve_all rng v exp h2 : forall s2 s3 o3,
  holder s2 = None -> cache s2 = Some (mk_token v exp) -> calls_before exp h2 ->
  auth_run rng s2 h2 = Some (s3, o3) -> forall x, In x o3 -> exists j, x = Return j (Ok v).
Proof.
  induction h2 as [|e r IH]; intros s2 s3 o3 EH EC HB HR x HX; cbn in HR; [inversion HR; subst; contradiction|].
  destruct (auth_step rng s2 e) as [[s4 o4]|] eqn:E; [|discriminate].
  destruct (auth_run rng s4 r) as [[s5 o5]|] eqn:E2; [|discriminate]. inversion HR; subst.
  unfold auth_step in E. rewrite EH in E. destruct e as [j now|j [? ?|?] n|j]; try discriminate.
  destruct HB as [HL HB]. rewrite EC in E. unfold is_expired in E. cbn in E.
  destruct (Z.ltb_spec exp now); [lia|]. inversion E; subst. apply in_app_or in HX. destruct HX as [[<-|[]]|HX]; [eauto|].
  eapply IH; [exact EH|exact EC|exact HB|exact E2|exact HX].
Qed.
(** C47: one grant serves every later call up to its computed expiry: no fetch,
    and every result is that token. *)
Theorem C47_one_fetch_serves_all rng h s o i v secs now s1 h2 s2 o2 :
  let exp := now + secs * 1000000000 in
  auth_run rng auth_init h = Some (s, o) ->
  auth_step rng s (Answer i (Granted v secs) now) = Some (s1, [Return i (Ok v)]) ->
  auth_run rng s1 h2 = Some (s2, o2) -> calls_before exp h2 ->
  forall x, In x o2 -> exists j, x = Return j (Ok v).
Proof.
  intros exp _ HS HR HB. unfold auth_step in HS. destruct (holder s) as [k|]; [|discriminate].
  destruct (i =? k)%nat; [|discriminate]. unfold add_seconds in HS.
  destruct ((_ <=? _) && _); inversion HS; subst. eapply serve_all; [| |exact HB|exact HR]; reflexivity.
Qed.

(** A concrete history: fetch, failure, fetch, grant, two cached answers, expiry. *)
Definition wide : Z * Z := (-10 ^ 22, 10 ^ 22).
Example C47_ex :
  option_map snd (auth_run wide auth_init
    [Call 0 5; Answer 0 (Refused (str "boom")) 6; Call 1 7; Answer 1 (Granted (str "tok") 1) 8;
     Call 2 1000000008; Call 3 9; Call 4 1000000009]) =
  Some [Fetch 0; Return 0 (Err (AuthenticationFailed (str "boom"))); Fetch 1; Return 1 (Ok (str "tok"));
        Return 2 (Ok (str "tok")); Return 3 (Ok (str "tok")); Fetch 4].
Proof. reflexivity. Qed.

(** C48: the server issues at [issued] a token living [secs] seconds; the answer
    arrives [delay] later. Then there is a moment after the server's expiry at
    which the plugin still hands the token out, from its cache; these moments
    are exactly the [delay] nanoseconds after the server's expiry. *)
Theorem C48_expired_token_served rng s i v secs issued delay s1 o1 :
  0 < delay ->
  auth_step rng s (Answer i (Granted v secs) (issued + delay)) = Some (s1, o1) ->
  fst rng <= issued + delay + secs * 1000000000 <= snd rng ->
  let server_expiry := issued + secs * 1000000000 in
  (exists now, server_expiry < now /\ forall j, auth_step rng s1 (Call j now) = Some (s1, [Return j (Ok v)])) /\
  (forall now j, server_expiry < now ->
     (In (Return j (Ok v)) (match auth_step rng s1 (Call j now) with Some (_, o) => o | None => [] end)
      <-> now <= server_expiry + delay)).
Proof.
  intros HD HS HR. unfold auth_step in HS. destruct (holder s) as [k|]; [|discriminate].
  destruct (i =? k)%nat; [|discriminate]. unfold add_seconds in HS.
  destruct (Z.leb_spec (fst rng) (issued + delay + secs * 1000000000)); [|lia].
  destruct (Z.leb_spec (issued + delay + secs * 1000000000) (snd rng)); [|lia]. cbn in HS. inversion HS; subst. cbn.
  split.
  - exists (issued + secs * 1000000000 + delay). split; [lia|]. intros j. unfold auth_step, is_expired. cbn.
    destruct (Z.ltb_spec (issued + delay + secs * 1000000000) (issued + secs * 1000000000 + delay)); [lia|reflexivity].
  - intros now j HN. unfold auth_step, is_expired. cbn.
    destruct (Z.ltb_spec (issued + delay + secs * 1000000000) now); cbn.
    + split; [intros [HX|[]]; discriminate|lia].
    + split; [lia|auto].
Qed.
Example C48_ex : exists s1 o1,
  auth_step wide (mk_auth None (Some 0%nat)) (Answer 0 (Granted (str "t") 60) (100 + 7)) = Some (s1, o1)
  /\ auth_step wide s1 (Call 1 (100 + 60000000000 + 3)) = Some (s1, [Return 1 (Ok (str "t"))]).
Proof. eexists _, _. split; reflexivity. Qed.

Print Assumptions C47_fetch_iff_no_valid_token.
Print Assumptions C47_failed_request_keeps_token.
Print Assumptions C47_fetch_excludes_others.
Print Assumptions C47_one_fetch_serves_all.
Print Assumptions C48_expired_token_served.
