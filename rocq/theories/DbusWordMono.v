(** What the parser does with words does not depend on what they held. *)
From Verif Require Import Base DbusElement DbusSigModel DbusFlagBits DbusWordModel DbusWordParse.
Local Open Scope N_scope.
Local Open Scope res_scope.

(** The second agrees with the first wherever that is initialised. *)
Definition agrees (a b : list (option N)) : Prop := Forall2 (fun x y => x = None \/ y = x) a b.
(** If the first succeeds, then so does the second, with a related result. *)
Definition above {A B} (R : A -> B -> Prop) (x : res A) (y : res B) : Prop :=
  match x with Ok a => exists b, y = Ok b /\ R a b | _ => True end.
Lemma above_bind {A B C D} (R : A -> B -> Prop) (S : C -> D -> Prop) x y f g :
  above R x y -> (forall a b, R a b -> above S (f a) (g b)) -> above S (bind x f) (bind y g).
Proof. destruct x as [a| |]; cbn [above bind]; auto. intros (b & -> & H) K. cbn [bind]. now apply K. Qed.
Lemma above_same {A C D} (S : C -> D -> Prop) (x : res A) f g :
  (forall a, above S (f a) (g a)) -> above S (bind x f) (bind x g).
Proof. destruct x; cbn [above bind]; auto. Qed.
Lemma above_ok {A B} (R : A -> B -> Prop) a b : R a b -> above R (Ok a) (Ok b).
Proof. intros H. exists b. auto. Qed.

Lemma agrees_length a b : agrees a b -> length a = length b.
Proof. induction 1; cbn; congruence. Qed.
Lemma agrees_refl a : agrees a a.
Proof. induction a; constructor; auto. Qed.
Lemma agrees_app a b c d : agrees a b -> agrees c d -> agrees (a ++ c) (b ++ d).
Proof. apply Forall2_app. Qed.
Lemma agrees_cut a b : agrees a b -> forall n, agrees (firstn n a) (firstn n b) /\ agrees (skipn n a) (skipn n b).
Proof.
  induction 1 as [|x y a b H F IH]; intros [|n]; cbn; try (split; constructor; fail).
  - split; constructor; auto.
  - destruct (IH n). split; [constructor; auto|assumption].
Qed.
Lemma agrees_init a b : agrees a b -> above eq (init a) (init b).
Proof.
  induction 1 as [|x y a b H F IH]; [now apply above_ok|]. cbn [init]. destruct x as [w|]; [|exact I].
  destruct H as [H| ->]; [discriminate|]. eapply above_bind; [exact IH|]. intros l ? <-. now apply above_ok.
Qed.

Section M.
Context (big : bool) (k : kind).
Lemma m_rd a b i : agrees a b -> above eq (wrd big k a i) (wrd big k b i).
Proof.
  intros H. unfold wrd, word_rd. cbv zeta. rewrite <- (agrees_length a b H). destruct (_ <? _); [|exact I].
  eapply above_bind; [apply agrees_init, agrees_cut, agrees_cut, H|]. intros l ? <-. now apply above_ok.
Qed.
Lemma m_wr a b i n : agrees a b -> above agrees (wwr big k a i n) (wwr big k b i n).
Proof.
  intros H. unfold wwr, word_wr. cbv zeta. rewrite <- (agrees_length a b H). destruct (_ <? _); [|exact I]. apply above_ok.
  apply agrees_app; [apply agrees_cut, H|]. apply agrees_app; [apply agrees_refl|apply agrees_cut, H].
Qed.
Lemma m_goto i a b : agrees a b -> above eq (w_parse_goto big k i a) (w_parse_goto big k i b).
Proof.
  intros H. unfold w_parse_goto. eapply above_bind; [apply m_rd, H|]. intros n ? <-. destruct (_ =? 0); [now apply above_ok|].
  apply above_same. intros u. eapply above_bind; [apply m_rd, H|]. intros ? ? _. now apply above_ok.
Qed.
Definition same_and {A} (x y : A * wbuffer) : Prop := fst x = fst y /\ agrees (snd x) (snd y).
Lemma m_propagate fuel : forall ti oi ou p a b, agrees a b ->
  above same_and (w_propagate big k fuel ti oi ou p a) (w_propagate big k fuel ti oi ou p b).
Proof.
  induction fuel as [|fuel IH]; intros ti oi ou p a b H; cbn [w_propagate]; (destruct ou as [up|]; [|apply above_ok; split; [reflexivity|exact H]]); [exact I|].
  eapply above_bind; [apply m_rd, H|]. intros this ? <-. eapply above_bind; [apply m_rd, H|]. intros u ? <-.
  apply above_same. intros [this' u']. eapply above_bind; [apply m_wr, H|]. clear a b H. intros a b H.
  eapply above_bind; [apply m_wr, H|]. clear a b H. intros a b H. apply above_same. intros e.
  destruct (_ && _).
  - destruct oi as [i|]; [|exact I]. eapply above_bind; [apply m_goto, H|]. intros [ti' oi'] ? <-.
    eapply above_bind; [apply m_rd, H|]. intros n ? <-. apply above_same. intros q. now apply IH.
  - apply above_same. intros u2. eapply above_bind; [apply m_wr, H|]. clear a b H. intros a b H. apply above_ok. split; [reflexivity|exact H].
Qed.
Inductive same_out : woutcome -> woutcome -> Prop :=
| so_go p u a b : agrees a b -> same_out (WGo (WSt p u a)) (WGo (WSt p u b))
| so_done a b : agrees a b -> same_out (WDone a) (WDone b)
| so_fail e : same_out (WFail e) (WFail e).
Lemma m_completed len si ti oi ou p a b : agrees a b ->
  above same_out (w_completed big k len si ti oi ou p a) (w_completed big k len si ti oi ou p b).
Proof.
  intros H. unfold w_completed. eapply above_bind; [apply m_propagate, H|]. intros [[oi' p'] a'] [[oi'' p''] b'] [E H'].
  cbn [fst snd] in *. injection E as <- <-. destruct oi'; [apply above_ok; now constructor|]. destruct (negb _); apply above_ok; now constructor.
Qed.
Definition same_sum {E A} (x y : E + (A * wbuffer)) : Prop :=
  match x, y with inl e, inl e' => e = e' | inr p, inr q => same_and p q | _, _ => False end.
Lemma m_close ti ou p a b : agrees a b -> above same_sum (w_close big k ti ou p a) (w_close big k ti ou p b).
Proof.
  intros H. unfold w_close. destruct ou as [up|]; [|now apply above_ok].
  eapply above_bind; [apply m_rd, H|]. intros this ? <-. eapply above_bind; [apply m_rd, H|]. intros u ? <-.
  apply above_same. intros te. apply above_same. intros ue. destruct (e_pair te) as [ex|]; [|exact I].
  destruct (negb _). { apply above_same. intros i. now apply above_ok. }
  cbv zeta. apply above_same. intros [q|]; [now apply above_ok|]. apply above_same. intros l. apply above_same. intros u'.
  eapply above_bind; [apply m_wr, H|]. clear a b H. intros a b H. eapply above_bind; [apply m_wr, H|]. clear a b H. intros a b H.
  apply above_same. intros i. eapply above_bind; [apply m_goto, H|]. intros [ti' oi'] ? <-.
  eapply above_bind; [apply m_rd, H|]. intros n ? <-. apply above_same. intros q. apply above_ok. split; [reflexivity|exact H].
Qed.
Lemma m_iteration len si c p u a b : agrees a b ->
  above same_out (w_iteration big k len si c (WSt p u a)) (w_iteration big k len si c (WSt p u b)).
Proof.
  intros H. unfold w_iteration. destruct (negb _); [apply above_ok; constructor|]. destruct (from_code c) as [e|]; [|apply above_ok; constructor].
  cbv zeta. cbn [wst_up wst_position wst_words]. apply above_same. intros o. apply above_same. intros n.
  eapply above_bind; [apply m_wr, H|]. clear a b H. intros a b H. eapply above_bind; [apply m_goto, H|]. intros [ti ou] ? <-.
  apply above_same. intros q. eapply above_bind; [apply m_rd, H|]. intros this ? <-.
  destruct (fs_all _ FLAG_OPEN); [apply above_ok; now constructor|].
  destruct (fs_all _ FLAG_CLOSE); [|now apply m_completed].
  eapply above_bind; [apply m_close, H|]. intros [e1|[[[ti1 oi1] p1] a1]] [e2|[[[ti2 oi2] p2] b2]] S; cbn [same_sum] in S; try contradiction.
  - subst. apply above_ok. constructor.
  - destruct S as [E S]. cbn [fst snd] in *. injection E as <- <- <-. now apply m_completed.
Qed.
Definition same_end (x y : Error + wbuffer) : Prop :=
  match x, y with inl e, inl e' => e = e' | inr a, inr b => agrees a b | _, _ => False end.
Lemma m_loop len rest : forall si p u a b, agrees a b ->
  above same_end (w_parse_loop big k len si rest (WSt p u a)) (w_parse_loop big k len si rest (WSt p u b)).
Proof.
  induction rest as [|c rest IH]; intros si p u a b H; cbn [w_parse_loop wst_up].
  - destruct u; [now apply above_ok|exact I].
  - eapply above_bind; [apply m_iteration, H|]. intros x y S. destruct S as [p' u' a' b' S|a' b' S|e]; [now apply IH|now apply above_ok|now apply above_ok].
Qed.
Lemma m_node_parse a b text : agrees a b -> above same_end (w_node_parse big k a text) (w_node_parse big k b text).
Proof.
  intros H. unfold w_node_parse. destruct (_ <? _); [now apply above_ok|]. destruct (_ <? 1); [now apply above_ok|]. now apply m_loop.
Qed.
End M.
Lemma m_parse big fuel a b text : agrees a b -> above same_end (word_parse big fuel a text) (word_parse big fuel b text).
Proof.
  intros H. unfold word_parse. cbv zeta. rewrite <- (agrees_length a b H).
  eapply above_bind; [apply m_node_parse, agrees_cut, H|]. intros [e|x] [e'|y] S; cbn [same_end] in S; try contradiction; [subst; now apply above_ok|].
  rewrite !skipn_length, <- (agrees_length a b H). apply above_same. intros _. apply above_ok. apply agrees_app; [exact S|apply agrees_cut, H].
Qed.
Lemma agrees_blank b : agrees (repeat None (length b)) b.
Proof. induction b; constructor; auto. Qed.
Lemma agrees_full l b : agrees (map Some l) b -> b = map Some l.
Proof. revert b. induction l as [|x l IH]; intros b H; inversion H as [|? y ? b' E F]; subst; [reflexivity|]. cbn. f_equal; [destruct E; [discriminate|assumption]|now apply IH]. Qed.
