(** C72: what is accepted from the network, as a grammar. *)
From Verif Require Import Bytes Wire Proto ProtoFacts Codec SpecFrame SpecCodec CodecFacts SpecGrammar GrammarUtf8 GrammarFacts PropCodec.
Open Scope N_scope.

(** The parser accepts exactly the encodings of the grammar, for every type of
    message, and reads from each what it encodes. *)
Theorem C72_parses_the_grammar : forall m b fs, parse_msg m b = Some fs <-> is_message m b fs.
Proof. exact parse_is. Qed.
Print Assumptions C72_parses_the_grammar.
(** No byte string encodes two messages of a type. *)
Theorem C72_unambiguous : forall m b fs fs', is_message m b fs -> is_message m b fs' -> fs = fs'.
Proof. intros m b fs fs' H H'. apply parse_is in H. apply parse_is in H'. congruence. Qed.
(** What the client writes is in the grammar. *)
Theorem C72_written_in_grammar : forall m fs, well_typed m fs = true -> blen (write_msg fs) < 2 ^ 64 -> is_message m (write_msg fs) fs.
Proof. intros m fs W B. apply parse_is. now apply parse_write_msg. Qed.

Lemma payload_is after meta data : (match after with [] => None | _ => payload_frame after end) = Some (meta, data) <-> has_payload after meta data.
Proof.
  split.
  - destruct after as [|x after]; [discriminate|]. set (af := x :: after) in *. unfold payload_frame.
    destruct (get_be 2 af) as [[m1 a1]|] eqn:E4; [|discriminate]. apply get_be_some in E4. destruct E4 as [E4 H4].
    destruct (get_be 4 a1) as [[m2 a2]|] eqn:E5; [|discriminate]. apply get_be_some in E5. destruct E5 as [-> H5].
    destruct (get_be 4 a2) as [[m3 a3]|] eqn:E6; [|discriminate]. apply get_be_some in E6. destruct E6 as [-> H6].
    intros E7. apply take_n_some in E7. destruct E7 as [-> H7].
    exists (be_bytes 2 m1 ++ be_bytes 4 m2). rewrite be32_put, H7, E4. split; [now rewrite <- !app_assoc|]. split; [|exact H6].
    rewrite blen_app. unfold blen. rewrite !be_bytes_length. reflexivity.
  - intros (six & -> & Hs & Hm). unfold blen in Hs. destruct six as [|a0 [|a1 [|a2 [|a3 [|a4 [|a5 [|a6 six]]]]]]]; cbn [length] in Hs; try lia.
    cbn [app]. unfold payload_frame. change (a0 :: a1 :: a2 :: a3 :: a4 :: a5 :: ?t) with ([a0; a1] ++ [a2; a3; a4; a5] ++ t).
    unfold get_be at 1. rewrite take_n_app by reflexivity. unfold get_be at 1. rewrite take_n_app by reflexivity.
    rewrite be32_put. unfold put_u32. rewrite get_be_put by exact Hm. rewrite take_n_app by reflexivity. reflexivity.
Qed.
Lemma body_is body mc : body_result body = Some mc <-> frame_says body mc.
Proof.
  unfold body_result, frame_says. split.
  - destruct (get_be 4 body) as [[n b2]|] eqn:E1; [|discriminate]. apply get_be_some in E1 as [-> Hn]. change (256 ^ N.of_nat 4) with (2 ^ 32) in Hn.
    destruct (take_n n b2) as [[cb after]|] eqn:E2; [|discriminate]. apply take_n_some in E2 as [-> Hc].
    destruct (parse_msg M_BaseCommand cb) as [c|] eqn:E3; [|discriminate]. apply parse_is in E3. intros H.
    exists cb, after. rewrite be32_put, Hc. split; [reflexivity|]. split; [exact Hn|].
    destruct (match after with [] => None | _ => payload_frame after end) as [[me da]|] eqn:P.
    + destruct (parse_msg M_MessageMetadata me) as [md|] eqn:E4; [|discriminate]. injection H as <-. cbn. split; [exact E3|]. exists me. split; [now apply payload_is|now apply parse_is].
    + injection H as <-. cbn. split; [exact E3|]. intros me da X. apply payload_is in X. congruence.
  - intros (cb & after & -> & Hc & M & P). rewrite be32_put. unfold put_u32. rewrite get_be_put by exact Hc. rewrite take_n_app by reflexivity.
    apply parse_is in M. rewrite M. destruct mc as [c [p|]]; cbn in *.
    + destruct P as (me & X & Y). apply payload_is in X. apply parse_is in Y. rewrite X, Y. destruct p. reflexivity.
    + destruct (match after with [] => None | _ => payload_frame after end) as [[me da]|] eqn:X; [|reflexivity]. exfalso. apply (P me da). now apply payload_is.
Qed.
(** A frame is delivered as a command exactly if it is complete and its body says
    that command; exactly its bytes are removed. *)
Theorem C72_delivered_iff : forall src mc rest, decode src = Got mc rest <->
  exists body, src = be32 (blen body) ++ body ++ rest /\ blen body < 2 ^ 32 /\ frame_says body mc.
Proof.
  intros src mc rest. split.
  - intros H. apply decode_got_split in H as (body & -> & Hb & E). exists body. rewrite be32_put. split; [reflexivity|]. split; [exact Hb|now apply body_is].
  - intros (body & -> & Hb & S). rewrite be32_put, decode_frame by exact Hb. apply body_is in S. now rewrite S.
Qed.
Print Assumptions C72_delivered_iff.
(** Reading panics exactly on a complete frame whose body says no command. *)
Theorem C72_crash_iff : forall src, decode src = Crash <->
  exists body rest, src = be32 (blen body) ++ body ++ rest /\ blen body < 2 ^ 32 /\ forall mc, ~ frame_says body mc.
Proof.
  intros src. split.
  - intros H. apply decode_crash_split in H as (body & rest & -> & Hb & E). exists body, rest. rewrite be32_put. split; [reflexivity|]. split; [exact Hb|].
    intros mc S. apply body_is in S. congruence.
  - intros (body & rest & -> & Hb & S). rewrite be32_put, decode_frame by exact Hb. destruct (body_result body) as [mc|] eqn:E; [|reflexivity]. exfalso. apply (S mc). now apply body_is.
Qed.
Print Assumptions C72_crash_iff.

(** A field number of 2^29 or more (a tag beyond 32 bits) is not in the grammar. *)
Example C72_bad_tag : forall m fs, ~ is_message m [n2b 128; n2b 128; n2b 128; n2b 128; n2b 16; n2b 0] fs.
Proof. intros m fs H. apply parse_is in H. unfold parse_msg in H. replace (parse_raw _) with (@None (list (N * wval))) in H by (vm_compute; reflexivity). discriminate. Qed.
(** A pong with an unknown field in its sub-message: accepted, also with two bytes
    after the command. With a byte of garbage inside the command, reading panics. A
    command without its required type, and a text with a surrogate, are not valid. *)
Definition ex_pong : message := [(1, PInt 19); (19, PMsg [(7, PUnk (WVarint 300))])].
Example C72_meets : is_message M_BaseCommand (write_msg ex_pong) ex_pong /\
  frame_says (be32 8 ++ write_msg ex_pong ++ [n2b 9; n2b 9]) (mk_cmd ex_pong None) /\
  (forall mc, ~ frame_says (be32 9 ++ write_msg ex_pong ++ [n2b 9]) mc) /\
  (forall fs, ~ is_message M_BaseCommand [n2b 154; n2b 1; n2b 0] fs) /\
  is_text (map n2b [226; 130; 172]) /\ ~ is_text (map n2b [237; 160; 128]).
Proof.
  split; [apply parse_is; vm_compute; reflexivity|].
  split; [apply body_is; vm_compute; reflexivity|].
  split; [intros mc H; apply body_is in H; vm_compute in H; discriminate|].
  split; [intros fs H; apply parse_is in H; vm_compute in H; discriminate|].
  split; [apply utf8_is; vm_compute; reflexivity|].
  intros H. apply utf8_is in H. vm_compute in H. discriminate.
Qed.
