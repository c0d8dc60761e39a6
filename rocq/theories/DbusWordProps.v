(** C102: signatures in their words.  The theorems C13-C22 are about nodes; the
    code keeps u64 words, and reads and writes nodes as structs in them. *)
From Coq Require Import String.
From Verif Require Import Base DbusElement DbusObs DbusSigModel DbusSpec DbusFlagBits DbusWordModel DbusWordSpec DbusWordParse.
From Verif Require DbusWordProofs DbusWordResults.
Local Open Scope N_scope.
Local Open Scope res_scope.

(** A node written to the words is read back with all its fields, wherever it
    is, and on machines of both byte orders. *)
Theorem word_fields : forall big k n b i b', (k = node8 \/ k = node64) ->
  (forall m, In (Some m) b -> node_fits k m) -> node_fits k n ->
  wr b i n = Ok b' ->
  word_wr big (node_id k) (buffer_words big k b) i (to_ref k n) = Ok (buffer_words big k b') /\
  exists r, word_rd big (node_id k) (buffer_words big k b') i = Ok r /\
  ref_flags r = pack (n_flags n) /\ ref_offset r = n_offset n /\ ref_position r = n_position n /\
  ref_length r = n_length n /\ ref_dvar_size r = n_dvar_size n /\ ref_gvar_size r = n_gvar_size n.
Proof.
  intros big k n b i b' Hk F N W. split.
  { rewrite (DbusWordProofs.write_buffer k Hk), W. reflexivity. }
  assert (F' : forall m, In (Some m) b' -> node_fits k m).
  { unfold wr in W. destruct (_ <? _); [|discriminate]. injection W as <-. intros x X. unfold upd in X. apply in_app_or in X. destruct X as [X|[X|X]].
    - apply F. rewrite <- (firstn_skipn (N.to_nat i) b). apply in_or_app. now left.
    - injection X as <-. exact N.
    - apply F. rewrite <- (firstn_skipn (S (N.to_nat i)) b). apply in_or_app. now right. }
  exists (to_ref k n). split.
  - rewrite (DbusWordProofs.read_buffer k Hk big b' i F'). unfold wr in W. destruct (N.ltb_spec i (N.of_nat (length b))) as [L|]; [|discriminate].
    injection W as <-. unfold rd, upd. rewrite nth_error_app2; rewrite firstn_length_le by lia; [|lia]. rewrite Nat.sub_diag. reflexivity.
  - pose proof (DbusWordProofs.ref_reads k Hk n N). tauto.
Qed.
Print Assumptions word_fields.
Example word_fields_ex : forall big, exists n, node_with node8 EI64 3 2 = Ok n /\ node_fits node8 n /\
  wr [None; None] 1 n = Ok [None; Some n] /\
  word_wr big 0 [None; None] 1 (to_ref node8 n) = Ok [None; Some (if big then 349674833905672 else 578717237926510087)] .
Proof. intros big. eexists. split; [reflexivity|]. split; [vm_compute; intuition congruence|]. split; [reflexivity|]. destruct big; vm_compute; reflexivity. Qed.

(** Parsing in the words gives the words of the parsed nodes, or the same
    error: nothing that C13-C22 say is lost in the packing.  In particular no
    word is read before it was written. *)
Theorem word_parse_is_parse : forall big fuel text,
  word_new big fuel text =
  res_map (fun r => match r with inl e => inl e | inr s => inr (sig_words big s) end) (sig_new fuel text).
Proof. exact DbusWordResults.new_words. Qed.
Print Assumptions word_parse_is_parse.
(** Reading from the words gives what reading the nodes gives. *)
Theorem word_queries : forall big s, reachable s ->
  word_len big (sig_words big s) = sig_len s /\
  forall i, word_node_at big (sig_words big s) i = res_map (option_map (to_ref (s_kind s))) (node_at s i) /\
            word_at big (sig_words big s) i = res_map (option_map (sig_words big)) (sig_at s i).
Proof. exact DbusWordResults.reads_words. Qed.
Print Assumptions word_queries.

(** The words are exactly as many as needed and hold the text. *)
Theorem word_text : forall big fuel text ws, word_new big fuel text = Ok (inr ws) ->
  size ws = size text * (if size text <=? 31 then 1 else 6) /\
  forall i, word_code_at big ws i = Ok (nth_error text (N.to_nat i)).
Proof. exact DbusWordResults.words_text. Qed.
Print Assumptions word_text.
Theorem word_accepts : forall big fuel text, size text < 2 ^ 61 ->
  (exists ws, word_new big fuel text = Ok (inr ws)) <-> (exists t, text = print t).
Proof. exact DbusWordResults.new_accepts. Qed.
Print Assumptions word_accepts.
(** The words of a part are a contiguous piece of the words of the whole, in
    place and of the right number, and hold the text of the part. *)
Theorem word_part : forall big fuel t ws fs u, word_new big fuel (print t) = Ok (inr ws) -> occurs t fs u ->
  exists sub a b, word_at big ws (index fs) = Ok (Some sub) /\ ws = a ++ sub ++ b /\
    size sub * size (print t) = size ws * size (print u) /\ size a * size (print t) = size ws * index fs /\
    forall i, word_code_at big sub i = Ok (nth_error (print u) (N.to_nat i)).
Proof. exact DbusWordResults.words_sub. Qed.
Print Assumptions word_part.
(** What the memory held before makes no difference. *)
Theorem word_any_memory : forall big fuel data text need r,
  size_for_length (size text) = Ok need -> size data = need -> word_new big fuel text = Ok r ->
  word_parse big fuel data text = Ok (match r with inl e => inl e | inr ws => inr (map Some ws) end).
Proof. exact DbusWordResults.parse_any_memory. Qed.
Print Assumptions word_any_memory.
Example word_text_ex : forall big, exists ws, word_new big 0 (bytes "a{s(iv)}") = Ok (inr ws) /\
  word_parse big 0 (repeat (Some 42) 8) (bytes "a{s(iv)}") = Ok (inr (map Some ws)) /\
  exists sub, word_at big ws 3 = Ok (Some sub) /\ size sub = 4 /\ word_code_at big sub 2 = Ok (Some 118).
Proof. intros []; eexists; (split; [vm_compute; reflexivity|]); (split; [vm_compute; reflexivity|]); eexists; (split; [vm_compute; reflexivity|]); split; vm_compute; reflexivity. Qed.
(** One whose nodes take six words each. *)
Example word_text_long_ex : forall big, exists ws,
  word_new big 0 (bytes "(iiiiiiiiiiiiiiiiiiiiiiiiiiiiiiiiaay)") = Ok (inr ws) /\ size ws = 222 /\
  exists sub, word_at big ws 33 = Ok (Some sub) /\ size sub = 18 /\ word_code_at big sub 2 = Ok (Some 121).
Proof. intros []; eexists; (split; [vm_compute; reflexivity|]); (split; [vm_compute; reflexivity|]); eexists; (split; [vm_compute; reflexivity|]); split; vm_compute; reflexivity. Qed.
