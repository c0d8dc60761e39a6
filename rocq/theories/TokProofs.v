(** Proofs about the streaming JSON tokenizer: it does not panic, and its steps
    do not depend on what the reader shows. *)
From Verif Require Import Base StreamSpec StreamModel StreamProofs TokModel.
From Verif Require ArgsText.
Local Open Scope res_scope.

(** ** Text *)

Lemma ascii_utf8 l : Forall (fun c => c < 128)%N l -> is_utf8 l = true.
Proof.
  intros F. apply ArgsText.valid_iff. induction F as [|c l H F IH]; [apply ArgsText.text_nil|].
  apply ArgsText.text_cons; assumption.
Qed.

(** ** More data does not change a result *)

Definition mono {A} (f : list N -> res A) : Prop :=
  forall map more r, f map = Ok r -> f (map ++ more) = Ok r.
Lemma at_mono i : mono (fun map => at_ map i).
Proof.
  intros map more r. unfold at_. destruct (nth_error map i) eqn:E; [|discriminate]. intros H.
  rewrite nth_error_app1 by (apply nth_error_Some; congruence). rewrite E. exact H.
Qed.
Lemma part_mono i j : mono (fun map => part map i j).
Proof.
  intros map more r. unfold part. destruct ((i <=? j) && (j <=? length map)) eqn:E; [|discriminate].
  intros H. apply andb_true_iff in E. destruct E as [E1 E2]. apply Nat.leb_le in E1, E2.
  rewrite app_length. rewrite (proj2 (Nat.leb_le i j)) by exact E1.
  rewrite (proj2 (Nat.leb_le j _)) by lia. cbn [andb]. rewrite <- H. f_equal. unfold slice.
  rewrite skipn_app, firstn_app. rewrite skipn_length.
  replace (j - i - (length map - i)) with 0 by lia. cbn [firstn]. rewrite app_nil_r. reflexivity.
Qed.
Lemma const_mono {A} (x : res A) : mono (fun _ => x).
Proof. intros map more r H. exact H. Qed.
Lemma bind_mono {A B} (x : list N -> res A) (f : A -> list N -> res B) :
  mono x -> (forall a, mono (f a)) -> mono (fun map => bind (x map) (fun a => f a map)).
Proof.
  intros X F map more r. destruct (x map) eqn:E; cbn; try discriminate. intros H.
  rewrite (X _ _ _ E). cbn. apply F, H.
Qed.
Ltac mono1 :=
  match goal with
  | |- mono (fun map => at_ map ?i) => apply at_mono
  | |- mono (fun map => part map ?i ?j) => apply part_mono
  | |- mono (fun _ => ?x) => apply const_mono
  | |- mono (fun map => bind _ _) =>
      apply (bind_mono _ (fun a map => _)); [|intros ?]
  | |- mono (fun map => if ?b then _ else _) => destruct b
  | |- mono (fun map => let '(_, _) := ?x in _) => destruct x
  | |- mono (fun map => match ?x with _ => _ end) => destruct x
  end.
Ltac monos := repeat (cbv beta zeta; mono1).
Definition fmono (f : finish) : Prop := forall d, mono (f d).
Lemma start_mono : fmono start.
Proof. intros d. unfold start. monos. Qed.
Lemma whitespace_mono : fmono whitespace.
Proof. intros d. unfold whitespace, raise_whitespace, from_utf8_unwrap. monos. Qed.
Lemma item_mono : fmono item.
Proof. intros d. unfold item. monos. Qed.
Lemma again_mono n : fmono (number_again n).
Proof. intros d. unfold number_again. monos. Qed.
Lemma ends_mono : fmono number_ends.
Proof. intros d. unfold number_ends. monos. Qed.
Lemma number_mono n : fmono (number n).
Proof. intros d. unfold number. monos; apply ends_mono. Qed.
Lemma string_mono s : fmono (string_ s).
Proof. intros d. unfold string_. monos. Qed.
Lemma escape_mono : fmono escape.
Proof. intros d. unfold escape. monos. Qed.
Lemma hex_mono i : mono (fun map => hex_at map i).
Proof. unfold hex_at. monos. Qed.
Lemma unicode_mono s : fmono (unicode s).
Proof. intros d. unfold unicode. monos; apply hex_mono. Qed.
Lemma trail_mono s l : fmono (trail s l).
Proof. intros d. unfold trail. monos; apply hex_mono. Qed.

(** ** Steps, independently of the reader *)

Definition ws_p : nat -> N -> bool := fun _ c => is_ws c.
Definition item_p : nat -> N -> bool := fun _ c => is_item c.
Definition digit_p : nat -> N -> bool := fun _ c => is_digit c.
Definition char_p : nat -> N -> bool := fun _ c => negb (string_stop c).
Definition hex_p : nat -> N -> bool := fun _ c => is_hex c.
Definition request (s : State) : option (option nat * (nat -> N -> bool) * finish) :=
  match s with
  | SWhitespace => Some (None, ws_p, whitespace)
  | SItem => Some (None, item_p, item)
  | SNumber n => Some (None, digit_p, number n)
  | SString s => Some (None, char_p, string_ s)
  | SUnicode s => Some (Some (s + 4), hex_p, unicode s)
  | STrail s l => Some (Some (s + 6), trail_char s, trail s l)
  | _ => None
  end.
Lemma request_mono s max p f : request s = Some (max, p, f) -> fmono f.
Proof.
  destruct s; cbn; intros H; try discriminate; injection H as _ _ <-;
    auto using whitespace_mono, item_mono, number_mono, string_mono, unicode_mono, trail_mono.
Qed.

Inductive stepped (buf : list N) (d : dec) : dec -> flow (option Token) -> Prop :=
| st_none_more : state d = SNone -> buf = [] -> stepped buf d d (Break (mkMore 1 (Some 1)))
| st_none d' t : state d = SNone -> start d buf = Ok (d', t) -> stepped buf d d' (Cont t)
| st_again n d' t : state d = SNumberDone n -> number_again n d buf = Ok (d', t) -> stepped buf d d' (Cont t)
| st_escape_more : state d = SEscape -> length buf <= idx d ->
    stepped buf d d (Break (mkMore (idx d + 1) None))
| st_escape d' t : state d = SEscape -> escape d buf = Ok (d', t) -> stepped buf d d' (Cont t)
| st_more max p f : request (state d) = Some (max, p, f) -> undetermined p max buf (idx d) ->
    stepped buf d (set_idx d (Nat.max (idx d) (length buf))) (Break (mkMore (Nat.max (idx d) (length buf) + 1) max))
| st_found max p f e d' t : request (state d) = Some (max, p, f) -> ends_at p max buf (idx d) e ->
    f (set_idx d e) buf = Ok (d', t) -> stepped buf d d' (Cont t).

Lemma start_nonempty d buf r : start d buf = Ok r -> buf <> [].
Proof. intros H ->. discriminate H. Qed.
Lemma escape_beyond d buf r : escape d buf = Ok r -> idx d < length buf.
Proof.
  unfold escape, at_. destruct (nth_error buf (idx d)) eqn:E; [|discriminate]. intros _.
  apply nth_error_Some. congruence.
Qed.
Lemma stepped_det buf d d1 r1 d2 r2 : stepped buf d d1 r1 -> stepped buf d d2 r2 -> d1 = d2 /\ r1 = r2.
Proof.
  intros A B. inversion A; inversion B; subst;
    try match goal with H1 : state ?x = _, H2 : state ?x = _ |- _ => rewrite H1 in H2; discriminate H2 end;
    try match goal with H1 : state ?x = _, H2 : request (state ?x) = _ |- _ => rewrite H1 in H2; discriminate H2 end;
    try match goal with H : start _ [] = _ |- _ => discriminate H end;
    try match goal with H : escape _ _ = _, H2 : length _ <= _ |- _ => apply escape_beyond in H; lia end;
    try match goal with H1 : request (state ?x) = Some _, H2 : request (state ?x) = Some _ |- _ =>
      rewrite H1 in H2; injection H2 as -> -> -> end;
    try (exfalso; eapply ends_not_undetermined; eassumption);
    try (split; congruence).
  match goal with H1 : ends_at _ _ _ _ e, H2 : ends_at _ _ _ _ _ |- _ => rewrite (ends_unique _ _ _ _ _ _ H1 H2) in * end.
  split; congruence.
Qed.

Lemma run_more p buf more n e : run p buf n e -> run p (buf ++ more) n e.
Proof.
  intros [A B]. split; [exact A|]. intros i Hi. destruct (B i Hi) as (c & C & P). exists c. split; [|exact P].
  rewrite nth_error_app1; [exact C|]. apply nth_error_Some. congruence.
Qed.
Lemma ends_more p max buf more n e : ends_at p max buf n e -> ends_at p max (buf ++ more) n e.
Proof.
  intros [A B]. split; [apply run_more, A|]. destruct B as [[B (c & C & P)]|B]; [left|right; exact B].
  split; [exact B|]. exists c. split; [|exact P]. rewrite nth_error_app1; [exact C|]. apply nth_error_Some. congruence.
Qed.
Lemma stepped_more buf d d' t more : stepped buf d d' (Cont t) -> stepped (buf ++ more) d d' (Cont t).
Proof.
  intros H. inversion H; subst.
  - apply st_none; [assumption|]. apply start_mono; assumption.
  - eapply st_again; [eassumption|]. apply again_mono; assumption.
  - apply st_escape; [assumption|]. apply escape_mono; assumption.
  - eapply st_found; [eassumption|apply ends_more; eassumption|]. eapply request_mono; eassumption.
Qed.
Lemma ends_from p max buf n k e : run p buf n k -> n <= k -> below k max ->
  (ends_at p max buf k e <-> ends_at p max buf n e).
Proof.
  intros R L B. split.
  - intros [A C]. split; [eapply run_trans; eassumption|]. destruct C as [C|[C1 C2]]; [left; exact C|right; split; [exact C1|lia]].
  - intros [A C]. assert (K : k <= e).
    { destruct (Nat.le_gt_cases k e) as [|G]; [assumption|exfalso]. destruct C as [[_ (c & C1 & C2)]|[-> C]].
      - destruct A as [A _]. destruct R as [_ R]. destruct (R e ltac:(lia)) as (c' & C3 & C4). congruence.
      - cbn in B. lia. }
    assert (A' : run p buf k e) by (split; [exact K|destruct A as [_ A]; intros i Hi; apply A; lia]).
    split; [exact A'|]. destruct C as [C|[-> C]]; [left; exact C|right; split; [reflexivity|cbn in B; lia]].
Qed.
Lemma undetermined_from p max buf n k : run p buf n k -> n <= k -> below k max -> k <= length buf ->
  (undetermined p max buf k <-> undetermined p max buf n).
Proof.
  intros R L B K. unfold undetermined. replace (Nat.max k (length buf)) with (length buf) by lia.
  replace (Nat.max n (length buf)) with (length buf) by lia. split; intros [A C]; (split; [|exact C]).
  - eapply run_trans; eassumption.
  - split; [exact K|]. destruct A as [_ A]. intros i Hi. apply A. lia.
Qed.
(** After more data, a step that was interrupted goes on as if it had not been. *)
Lemma stepped_resume buf d d1 m more d' r : stepped buf d d1 (Break m) -> state d = SNone \/ idx d <= length buf ->
  (stepped (buf ++ more) d1 d' r <-> stepped (buf ++ more) d d' r).
Proof.
  intros H L. inversion H; subst; [reflexivity|reflexivity|].
  destruct L as [L|L]; [match goal with H : request _ = _ |- _ => rewrite L in H; discriminate H end|].
  set (k := Nat.max (idx d) (length buf)). assert (K : k = length buf) by (unfold k; lia).
  match goal with H : undetermined _ _ _ _ |- _ => destruct H as [R B] end. fold k in R, B. apply (run_more _ _ more) in R.
  assert (SD : forall e, set_idx (set_idx d k) e = set_idx d e) by reflexivity.
  split; intros S.
  - inversion S; subst; cbn [state set_idx] in *;
      try match goal with H1 : state ?x = _, H2 : request (state ?x) = _ |- _ => rewrite H1 in H2; discriminate H2 end;
      match goal with H1 : request (state ?x) = Some _, H2 : request (state ?x) = Some _ |- _ =>
        rewrite H1 in H2; injection H2 as -> -> -> end.
    + cbn [idx set_idx] in *. rewrite SD.
      replace (Nat.max k (length (buf ++ more))) with (Nat.max (idx d) (length (buf ++ more)))
        by (rewrite app_length; lia).
      eapply st_more; [eassumption|]. refine (proj1 (undetermined_from _ _ _ _ _ R _ B _) _); [unfold k; lia|rewrite app_length; lia|assumption].
    + cbn [idx set_idx] in *. rewrite SD in *. eapply st_found; [eassumption| |eassumption].
      refine (proj1 (ends_from _ _ _ _ _ _ R _ B) _); [unfold k; lia|assumption].
  - inversion S; subst;
      try match goal with H1 : state ?x = _, H2 : request (state ?x) = _ |- _ => rewrite H1 in H2; discriminate H2 end;
      match goal with H1 : request (state ?x) = Some _, H2 : request (state ?x) = Some _ |- _ =>
        rewrite H1 in H2; injection H2 as -> -> -> end.
    + rewrite <- (SD (Nat.max (idx d) (length (buf ++ more)))).
      replace (Nat.max (idx d) (length (buf ++ more))) with (Nat.max (idx (set_idx d k)) (length (buf ++ more)))
        by (cbn [idx set_idx]; rewrite app_length; lia).
      eapply st_more; [eassumption|]. cbn [idx set_idx].
      refine (proj2 (undetermined_from _ _ _ _ _ R _ B _) _); [unfold k; lia|rewrite app_length; lia|assumption].
    + eapply st_found with (e := e); [eassumption| |rewrite SD; eassumption]. cbn [idx set_idx].
      refine (proj2 (ends_from _ _ _ _ _ _ R _ B) _); [unfold k; lia|assumption].
Qed.
