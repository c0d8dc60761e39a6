(** Property C118: the streaming JSON tokenizer accounts for every byte. *)
From Coq Require String Ascii.
From Verif Require Import Base StreamSpec StreamModel StreamProofs TokModel TokProofs TokSafe TokSession TokLex TokMore.
From Verif Require Import TokTextSpec TokProps.
Local Open Scope res_scope.

(** What a step reports on the data [m]: nothing, an error without text, or the
    text that is done. *)
Definition told (m : list N) (d : dec) (o : option Token) : Prop :=
  match o, done d with
  | None, None => True
  | Some t, None => shown t = []
  | Some t, Some l => l <= length m /\ shown t = firstn l m
  | None, Some _ => False
  end.
Definition tells (m : list N) (r : res (dec * option Token)) : Prop := forall d o, r = Ok (d, o) -> told m d o.

Lemma part_front m j s : part m 0 j = Ok s -> j <= length m /\ s = firstn j m.
Proof.
  unfold part. cbn [Nat.leb andb]. destruct (j <=? length m) eqn:E; [|discriminate]. intros H. injection H as <-.
  apply Nat.leb_le in E. split; [exact E|]. unfold slice. now rewrite Nat.sub_0_r.
Qed.
Lemma raise_number_shown m n t : raise_number m n = Ok t -> shown t = m.
Proof.
  unfold raise_number. destruct (text_of m (n_int n)); cbn [bind]; try discriminate.
  match goal with |- bind ?x _ = _ -> _ => destruct x; cbn [bind]; try discriminate end.
  match goal with |- bind ?x _ = _ -> _ => destruct x; cbn [bind]; try discriminate end.
  intros H. injection H as <-. reflexivity.
Qed.
Lemma raise_item_shown m : shown (raise_item m) = m.
Proof.
  unfold raise_item, list_eqb.
  repeat match goal with |- context [if (if ?x then _ else _) then _ else _] => destruct x; [subst; reflexivity|] end.
  destruct (is_utf8 m); reflexivity.
Qed.

Ltac tell :=
  match goal with
  | |- tells _ (bind ?x _) => let E := fresh "E" in destruct x eqn:E; cbn [bind]
  | |- tells _ (let '(_, _) := ?x in _) => destruct x
  | |- tells _ (if ?b then _ else _) => destruct b eqn:?
  | |- tells _ Panic => intros ? ? Z; discriminate Z
  | |- tells _ NoFuel => intros ? ? Z; discriminate Z
  | D : done _ = None |- tells _ (Ok (_, None)) => intros ? ? Z; injection Z as <- <-; unfold told; cbn; rewrite ?D; exact I
  | D : done _ = None |- tells _ (Ok (_, Some (TError _))) => intros ? ? Z; injection Z as <- <-; unfold told; cbn; rewrite ?D; reflexivity
  | |- tells _ (Ok (_, if ?b then _ else _)) => destruct b
  | |- tells _ _ => progress cbv zeta
  end.
Lemma acc_done d m v : done (string_byte d m v) = done d.
Proof. reflexivity. Qed.
Lemma raw_done d m : done (string_raw d m) = done d.
Proof. unfold string_raw. destruct (0 <? _); reflexivity. Qed.
Lemma start_tells d m : done d = None -> tells m (start d m).
Proof.
  intros D. unfold start. unfold at_. destruct m as [|c m]; cbn [nth_error bind]; [tell|].
  repeat match goal with
  | |- tells _ (if (c =? ?k)%N then Ok (set_done _ _, _) else _) =>
      destruct (c =? k)%N eqn:?; [intros ? ? Z; injection Z as <- <-; split; [cbn; lia|cbn; f_equal; symmetry; now apply N.eqb_eq]|]
  | |- tells _ _ => tell
  end.
Qed.
Lemma number_ends_tells d m : done d = None -> tells m (number_ends d m).
Proof.
  intros D. unfold number_ends. tell; [|tell..]. apply part_front in E as [L ->].
  unfold number_done. destruct (state d) eqn:SD; cbn [bind]; try (intros ? ? Z; discriminate Z).
  match goal with |- context [if ?b then Ok _ else _] => destruct b; cbn [bind] end; [tell|].
  destruct (raise_number _ _) eqn:R; cbn [bind]; [|tell..].
  intros ? ? Z. injection Z as <- <-. split; [exact L|]. now apply raise_number_shown in R.
Qed.
Lemma number_tells n d m : done d = None -> tells m (number n d m).
Proof.
  intros D. unfold number. destruct (extend n (idx d)) as [n' r]. cbv zeta.
  repeat first [apply number_ends_tells; exact D|tell].
Qed.
Lemma raise_string_shown d m t : raise_string d m = Ok t -> shown t = m.
Proof.
  unfold raise_string. cbv zeta. match goal with |- bind ?x _ = _ -> _ => destruct x; cbn [bind]; try discriminate end.
  match goal with |- bind ?x _ = _ -> _ => destruct x; cbn [bind]; try discriminate end.
  intros H. injection H as <-. destruct (is_utf8 _); reflexivity.
Qed.
Lemma request_tells s max p f d m : request s = Some (max, p, f) -> done d = None -> tells m (f d m).
Proof.
  destruct s; cbn; intros H D; try discriminate H; injection H as _ _ <-.
  - unfold whitespace. cbv zeta. tell; [|tell..]. apply part_front in E as [L ->].
    unfold raise_whitespace, from_utf8_unwrap. destruct (is_utf8 _); cbn [bind]; [|tell].
    intros ? ? Z. injection Z as <- <-. split; [exact L|reflexivity].
  - unfold item. cbv zeta. tell; [|tell..]. apply part_front in E as [L ->].
    intros ? ? Z. injection Z as <- <-. split; [exact L|]. apply raise_item_shown.
  - now apply number_tells.
  - unfold string_. tell; [|tell..]. tell; cbv zeta.
    + tell; [|tell..]. match goal with |- context [part m 0 ?j] => destruct (part m 0 j) eqn:P; cbn [bind]; [|tell..] end.
      apply part_front in P as [L ->]. match goal with |- context [raise_string ?a ?b] => destruct (raise_string a b) eqn:R; cbn [bind]; [|tell..] end.
      intros ? ? Z. injection Z as <- <-. unfold told. cbn [done set_done]. split; [exact L|]. now apply raise_string_shown in R.
    + tell. { tell; [|tell..]. intros ? ? Z. injection Z as <- <-. unfold told. cbn. rewrite raw_done, D. exact I. }
      tell; [|tell]. tell; [|tell..]. intros ? ? Z. injection Z as <- <-. unfold told. rewrite raw_done. cbn. now rewrite D.
  - unfold unicode. repeat tell.
  - unfold TokModel.trail. repeat tell.
Qed.
Lemma step_tells buf d d' r : done d = None -> stepped buf d d' r ->
  match r with Cont o => told buf d' o | Break _ => done d' = None end.
Proof.
  intros D S. inversion S; subst; auto.
  - eapply start_tells; eassumption.
  - match goal with H : number_again _ _ _ = _ |- _ => revert H end. unfold number_again. cbv zeta.
    destruct (part buf 0 _) eqn:P; cbn [bind]; try discriminate. apply part_front in P as [L ->].
    destruct (raise_number _ _) eqn:R; cbn [bind]; try discriminate. intros Z. injection Z as <- <-.
    split; [exact L|]. now apply raise_number_shown in R.
  - assert (X : tells buf (TokModel.escape d buf)). { unfold TokModel.escape. repeat tell. } eapply X; eassumption.
  - eapply (request_tells _ _ _ _ (set_idx d e)); eassumption.
Qed.

(** What is not yet reported. *)
Definition pending_text (buf : list N) (d : dec) : list N := match done d with Some l => skipn l buf | None => buf end.
Lemma clear_pending buf d buf0 d0 : clear_done buf d = Ok (buf0, d0) -> buf0 = pending_text buf d /\ done d0 = None.
Proof.
  unfold clear_done, pending_text, read_advance. destruct (done d) eqn:D.
  - destruct (_ <=? _); [|discriminate]. intros H. injection H as <- <-. split; reflexivity.
  - intros H. injection H as <- <-. auto.
Qed.
Lemma pop_tells buf d buf' d' r : popped buf d buf' d' r ->
  match r with
  | Cont t => pending_text buf d = shown t ++ pending_text buf' d' /\ (done d' = None \/ buf' = shown t ++ pending_text buf' d')
  | Break _ => pending_text buf d = pending_text buf' d' /\ done d' = None
  end.
Proof.
  intros P. induction P as [buf d buf0 d0 d1 m C S|buf d buf0 d0 d1 t C S|buf d buf0 d0 d1 buf2 d2 r C S P IH];
    apply clear_pending in C as [-> D]; pose proof (step_tells _ _ _ _ D S) as T; cbn [told] in T.
  - split; [|exact T]. unfold pending_text at 2. now rewrite T.
  - unfold told in T. set (b := pending_text buf d) in *. unfold pending_text. destruct (done d1).
    + destruct T as [L ->]. rewrite firstn_skipn. auto.
    + rewrite T. auto.
  - set (b := pending_text buf d) in *. assert (b = pending_text b d1) as Q.
    { unfold told in T. unfold pending_text. destruct (done d1); [contradiction|reflexivity]. }
    rewrite Q. exact IH.
Qed.

(** At every time: the texts of what was reported are what arrived, in order,
    with nothing left out, added or repeated, up to a rest that has not been
    reported yet. The reader still holds that rest; directly after a token it
    holds the token, too. *)
Theorem tok_accounts : forall h rs buf d, runs h rs buf d ->
  exists rest, fed h = flat_map shown (tokens rs) ++ rest /\
    (buf = rest \/ exists rs' t, rs = rs' ++ [Cont t] /\ buf = shown t ++ rest).
Proof.
  intros h rs buf d [F E].
  assert (G : fed h = flat_map shown (tokens rs) ++ pending_text buf d /\
    (done d = None \/ exists rs' t, rs = rs' ++ [Cont t] /\ buf = shown t ++ pending_text buf d)).
  2:{ exists (pending_text buf d). destruct G as [G K]. split; [exact G|]. destruct K as [K|K]; [left|right; exact K].
      unfold pending_text. now rewrite K. }
  revert rs buf d E. induction h as [|e h IH] using rev_ind; intros rs buf d E.
  - cbn in E. injection E as <- <- <-. split; [reflexivity|]. left. reflexivity.
  - apply Forall_app in F. destruct F as [F FE]. rewrite session_app in E.
    destruct (session_ok h F [] new (wf_new [])) as (rs1 & b1 & d1 & E1 & W & _). rewrite E1 in E. cbn [bind] in E.
    specialize (IH F _ _ _ E1). destruct IH as [G K]. rewrite fed_app.
    destruct e as [data|v]; cbn [session fed] in *.
    + injection E as <- <- <-. rewrite !app_nil_r.
      assert (Q : pending_text (b1 ++ data) d1 = pending_text b1 d1 ++ data).
      { unfold pending_text, wf in *. destruct (done d1); [|reflexivity]. rewrite skipn_app.
        replace (n - length b1) with 0 by lia. reflexivity. }
      rewrite Q, G, app_assoc. split; [reflexivity|]. destruct K as [K|(rs' & t & -> & K)]; [now left|right].
      exists rs', t. split; [reflexivity|]. now rewrite K at 1; rewrite app_assoc.
    + inversion FE as [|? ? HV _]; subst. destruct (TokSession.pop_ok v b1 d1 HV W) as (b2 & d2 & r & EP & P & _).
      rewrite EP in E. cbn [bind] in E. injection E as <- <- <-. rewrite app_nil_r, G, tokens_app, flat_map_app.
      apply pop_tells in P. destruct r as [m|t]; destruct P as [P K2]; rewrite P; cbn [tokens flat_map].
      * rewrite app_nil_r. split; [reflexivity|now left].
      * rewrite app_nil_r, app_assoc. split; [reflexivity|]. destruct K2 as [K2|K2]; [now left|right]. now exists rs1, t.
Qed.
Print Assumptions tok_accounts.
(** Once all tokens have been reported, the rest is exactly what the reader
    holds: the beginning of one token, for which more is needed. *)
Theorem tok_accounts_drained : forall h ts m buf d, drained h ts m buf d -> fed h = flat_map shown ts ++ buf.
Proof.
  intros h ts m buf d (h' & v & rs & -> & R & ->). destruct (tok_accounts _ _ _ _ R) as (rest & G & K).
  rewrite tokens_app in G. cbn [tokens] in G. rewrite app_nil_r in G. rewrite G. f_equal.
  destruct K as [->|(rs' & t & Z & _)]; [reflexivity|]. apply app_inj_tail in Z. destruct Z. discriminate.
Qed.
Print Assumptions tok_accounts_drained.
(** Different texts with the same tokens differ only in what is left. *)
Theorem tok_accounts_injective : forall h1 h2 ts m1 m2 d1 d2,
  drained h1 ts m1 [] d1 -> drained h2 ts m2 [] d2 -> fed h1 = fed h2.
Proof.
  intros h1 h2 ts m1 m2 d1 d2 A B. apply tok_accounts_drained in A, B. now rewrite A, B.
Qed.
Print Assumptions tok_accounts_injective.
Section Cases.
Import String.
Open Scope string_scope. Open Scope list_scope.
(** A number with errors, a word and bytes that are no text, in two pieces; a
    string has begun. *)
Definition junk : list N := of_ascii "[++01.,nul " ++ [0xff%N] ++ of_ascii ",""a".
Definition junk_history : list event := [Feed (firstn 5 junk); Pop slice_view; Feed (skipn 5 junk)] ++ repeat (Pop slice_view) 10.
Definition junk_tokens : list Token :=
  [TArrayOpen; TError NumberLeadingPlus; TError NumberMultipleSigns; TError NumberRangeEmpty;
   TNumber (mkNumber (of_ascii "++01.") Plus (of_ascii "01") (Some []) None); TComma;
   TError (ItemUnknown (of_ascii "nul")); TWhitespace (of_ascii " "); TError (ItemNonUtf8 [0xff%N]); TComma].
Example tok_accounts_case : exists m buf d, drained junk_history junk_tokens m buf d /\ fed junk_history = junk /\
  flat_map shown junk_tokens = of_ascii "[++01.,nul " ++ [0xff%N] ++ of_ascii "," /\ buf = of_ascii """a".
Proof.
  exists (mkMore 3 None). eexists. eexists. split; [|split; [reflexivity|split; reflexivity]].
  exists ([Feed (firstn 5 junk); Pop slice_view; Feed (skipn 5 junk)] ++ repeat (Pop slice_view) 9), slice_view.
  exists (map Cont junk_tokens).
  split; [reflexivity|]. split; [|reflexivity]. split; [|vm_compute; reflexivity].
  pose proof slice_honest. cbn. repeat (constructor; [first [exact I|assumption]|]). constructor.
Qed.
End Cases.
