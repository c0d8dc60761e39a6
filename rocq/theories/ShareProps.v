(** C116: reports shared by several flags. *)
From Verif Require Import Base ArgsModel ReportModel ShareModel.
Local Open Scope res_scope.

Section Proofs.
Context {V P R : Type}.

Lemma tell_ref (f : flag_report P R V) v c t :
  tell (shared_ref f) (mkRef false v) c t =
  match tell f v c t with Ok (v', p', r) => Ok (mkRef false v', p', r) | Panic => Panic | NoFuel => NoFuel end.
Proof. destruct t; cbn; unfold ref_call; cbn; [destruct (r_set V f v c) as [[[? ?] ?]| |]|destruct (r_toggle V f v c b) as [[[? ?] ?]| |]|destruct (r_parse V f v c x) as [[[? ?] ?]| |]]; reflexivity. Qed.

Lemma tell_cell (f : flag_report P R V) v c t :
  tell (shared_cell f) v c t =
  match tell f v c t with
  | Ok (v', p', None) => Ok (v', p', None)
  | Ok (_, p', Some e) => Ok (v, p', Some e)
  | Panic => Panic | NoFuel => NoFuel
  end.
Proof. destruct t; cbn; unfold cell_call; cbn; [destruct (r_set V f v c) as [[[? ?] [|]]| |]|destruct (r_toggle V f v c b) as [[[? ?] [|]]| |]|destruct (r_parse V f v c x) as [[[? ?] [|]]| |]]; reflexivity. Qed.

Lemma tell_uses_ext {S} (f : nat -> flag_report P R S) us : forall s1 s2 (p : P), (forall k, s1 k = s2 k) ->
  match tell_uses f s1 p us, tell_uses f s2 p us with
  | Ok (t1, p1, r1), Ok (t2, p2, r2) => (forall k, t1 k = t2 k) /\ p1 = p2 /\ r1 = r2
  | Panic, Panic => True | NoFuel, NoFuel => True
  | _, _ => False
  end.
Proof.
  induction us as [|u us IH]; intros s1 s2 p E; [cbn; repeat split; exact E|].
  cbn [tell_uses]. rewrite (E (u_object u)). destruct (tell _ _ _ _) as [[[v p'] [e|]]| |]; cbn [bind]; try exact I.
  - repeat split. intros k. unfold put. destruct (k =? u_object u); [reflexivity|apply E].
  - apply IH. intros k. unfold put. destruct (k =? u_object u); [reflexivity|apply E].
Qed.
End Proofs.

(** C116: through references to a [RefCell] each, any objects are told, and tell
    the parser, exactly what they are told and tell if the flags own them. No
    borrow is left behind, and nothing panics that does not panic otherwise. *)
Theorem shared_ref_exact : forall {V P R} (f : nat -> flag_report P R V) us s (p : P),
  match tell_uses f s p us with
  | Ok (s', p', r) => exists t, tell_uses (fun k => shared_ref (f k)) (fun k => mkRef false (s k)) p us = Ok (t, p', r) /\
      forall k, t k = mkRef false (s' k)
  | Panic => tell_uses (fun k => shared_ref (f k)) (fun k => mkRef false (s k)) p us = Panic
  | NoFuel => tell_uses (fun k => shared_ref (f k)) (fun k => mkRef false (s k)) p us = NoFuel
  end.
Proof.
  intros V P R f us. induction us as [|u us IH]; intros s p; [cbn; eexists; split; reflexivity|].
  cbn [tell_uses]. rewrite tell_ref. destruct (tell _ _ _ _) as [[[v p'] [e|]]| |]; cbn [bind]; try reflexivity.
  - eexists. split; [reflexivity|]. intros k. unfold put. destruct (k =? u_object u); reflexivity.
  - specialize (IH (put s (u_object u) v) p').
    pose proof (tell_uses_ext (fun k => shared_ref (f k)) us (fun k => mkRef false (put s (u_object u) v k))
      (put (fun k => mkRef false (s k)) (u_object u) (mkRef false v)) p') as X.
    match type of X with ?A -> _ => assert (H : A) by (intros k; unfold put; destruct (k =? u_object u); reflexivity) end.
    specialize (X H). destruct (tell_uses f _ _ us) as [[[s' p''] r]| |].
    + destruct IH as [t [E T]]. rewrite E in X. destruct (tell_uses _ (put _ _ _) _ _) as [[[t' p3] r']| |]; try contradiction.
      destruct X as [X1 [X2 X3]]. subst. exists t'. split; [reflexivity|]. intros k. rewrite <- X1. apply T.
    + rewrite IH in X. destruct (tell_uses _ (put _ _ _) _ _) as [[[t' p3] r']| |]; try contradiction. reflexivity.
    + rewrite IH in X. destruct (tell_uses _ (put _ _ _) _ _) as [[[t' p3] r']| |]; try contradiction. reflexivity.
Qed.

(** C116: a report to an object that the program has borrowed panics; objects
    that are not told may be borrowed. *)
Theorem shared_ref_borrowed : forall {V P R} (f : nat -> flag_report P R V) s (p : P) u us,
  borrowed (s (u_object u)) = true -> tell_uses (fun k => shared_ref (f k)) s p (u :: us) = Panic.
Proof.
  intros V P R f s p u us H. cbn [tell_uses].
  assert (E : tell (shared_ref (f (u_object u))) (s (u_object u)) (mkContext (u_current u) (u_arg u) p) (u_told u) = Panic).
  { destruct (u_told u); cbn; unfold ref_call; rewrite H; reflexivity. }
  rewrite E. reflexivity.
Qed.

(** C116: through references to a [Cell] each, the same holds, except that a
    report that ends the parsing leaves no trace in its object: the cells hold
    what the reports before it have left. *)
Theorem shared_cell_exact : forall {V P R} (f : nat -> flag_report P R V) us s (p : P),
  match tell_uses f s p us with
  | Ok (s', p', None) => exists t, tell_uses (fun k => shared_cell (f k)) s p us = Ok (t, p', None) /\ forall k, t k = s' k
  | Ok (s', p', Some e) => exists t n s0 p0, tell_uses (fun k => shared_cell (f k)) s p us = Ok (t, p', Some e) /\
      (n < List.length us)%nat /\ tell_uses f s p (firstn n us) = Ok (s0, p0, None) /\ forall k, t k = s0 k
  | Panic => tell_uses (fun k => shared_cell (f k)) s p us = Panic
  | NoFuel => tell_uses (fun k => shared_cell (f k)) s p us = NoFuel
  end.
Proof.
  intros V P R f us. induction us as [|u us IH]; intros s p; [cbn; eexists; split; reflexivity|].
  cbn [tell_uses]. rewrite tell_cell. destruct (tell _ _ _ _) as [[[v p'] [e|]]| |] eqn:T; cbn [bind]; try reflexivity.
  - exists (put s (u_object u) (s (u_object u))), 0, s, p. split; [reflexivity|]. split; [cbn; lia|]. split; [reflexivity|].
    intros k. unfold put. destruct (Nat.eqb_spec k (u_object u)) as [->|]; reflexivity.
  - specialize (IH (put s (u_object u) v) p'). destruct (tell_uses f _ _ us) as [[[s' p''] [e|]]| |].
    + destruct IH as [t [n [s0 [p0 [E [L [F K]]]]]]]. exists t, (S n), s0, p0. split; [exact E|]. split; [cbn; lia|]. split; [|exact K].
      cbn [firstn tell_uses]. rewrite T. exact F.
    + exact IH.
    + exact IH.
    + exact IH.
Qed.

(** C116: if reports that end the parsing leave their object alone, the two
    kinds of cells and owned objects are the same. *)
Theorem shared_cell_same : forall {V P R} (f : nat -> flag_report P R V) us s (p : P),
  (forall k v c t v' p' e, tell (f k) v c t = Ok (v', p', Some e) -> v' = v) ->
  forall s' p' r, tell_uses f s p us = Ok (s', p', r) ->
  exists t, tell_uses (fun k => shared_cell (f k)) s p us = Ok (t, p', r) /\ forall k, t k = s' k.
Proof.
  intros V P R f us s p H. revert s p. induction us as [|u us IH]; intros s p s' p' r.
  { cbn. intros E. injection E as -> -> ->. eexists. split; reflexivity. }
  cbn [tell_uses]. rewrite tell_cell. destruct (tell _ _ _ _) as [[[v p''] [e|]]| |] eqn:T; cbn [bind]; try discriminate.
  - intros E. injection E as <- <- <-. eexists. split; [reflexivity|]. apply H in T. subst v. reflexivity.
  - apply IH.
Qed.

(** The event of the parser at which a flag is told [t]. *)
Definition event_of (at_ : nat * nat) (cur : nat) (arg : str) (t : told) : event :=
  match t with
  | TSet => ESet at_ cur arg
  | TToggle b => EToggle at_ cur arg b
  | TParse x => EParse at_ cur arg x
  end.

Lemma settle_same {P R} (pr : parser_report P R) v p x v' p' e : settle pr v p x = Ok (v', p', Some e) -> v' = v.
Proof. destruct x as [a|a]; cbn; [discriminate|]. destruct (pr p a) as [q r]. intros H. injection H as -> _ _. reflexivity. Qed.

(** C116: the types of the library do so, and what C71 to C75 say of them, by way
    of [handle], holds for flags that own their objects and for flags that share
    them through either kind of cell. *)
Theorem shared_builtin : forall {P R} (pr : parser_report P R),
  (forall v c t v' p' e, tell (builtin pr) v c t = Ok (v', p', Some e) -> v' = v) /\
  forall sch bind cbind w at_ cur arg t, exists vals p r s1 s2 s3,
    let us := [mkUse (slot sch bind at_) cur arg t] in
    handle pr sch bind cbind w (event_of at_ cur arg t) = (mkWorld vals (w_params w) p, r) /\
    tell_uses (fun _ => builtin pr) (w_values w) (w_parser w) us = Ok (s1, p, r) /\
    tell_uses (fun _ => shared_cell (builtin pr)) (w_values w) (w_parser w) us = Ok (s2, p, r) /\
    tell_uses (fun _ => shared_ref (builtin pr)) (fun k => mkRef false (w_values w k)) (w_parser w) us = Ok (s3, p, r) /\
    forall k, s1 k = vals k /\ s2 k = vals k /\ s3 k = mkRef false (vals k).
Proof.
  intros P R pr.
  assert (L : forall v c t v' p' e, tell (builtin pr) v c t = Ok (v', p', Some e) -> v' = v).
  { intros v c t v' p' e. destruct t; cbn; apply settle_same. }
  split; [exact L|]. intros sch bind cbind w at_ cur arg t.
  set (us := [mkUse (slot sch bind at_) cur arg t]).
  assert (D : exists vals p r s1, handle pr sch bind cbind w (event_of at_ cur arg t) = (mkWorld vals (w_params w) p, r) /\
     tell_uses (fun _ => builtin pr) (w_values w) (w_parser w) us = Ok (s1, p, r) /\ forall k, s1 k = vals k).
  { assert (X : forall x, exists vals p r s1, react pr w (slot sch bind at_) x = (mkWorld vals (w_params w) p, r) /\
       (do '(v, p, r) <- settle pr (w_values w (slot sch bind at_)) (w_parser w) x;
        match r with Some e => Ok (put (w_values w) (slot sch bind at_) v, p, Some e)
        | None => Ok (put (w_values w) (slot sch bind at_) v, p, None) end) = Ok (s1, p, r) /\ forall k, s1 k = vals k).
    { intros [v|e]; cbn.
      - do 4 eexists. repeat split.
      - unfold report. destruct (pr (w_parser w) e) as [p r]. cbn. exists (w_values w), p, r, (put (w_values w) (slot sch bind at_) (w_values w (slot sch bind at_))).
        split; [reflexivity|]. split; [destruct r; reflexivity|]. intros k. unfold put. destruct (Nat.eqb_spec k (slot sch bind at_)) as [->|]; reflexivity. }
    destruct t; apply X. }
  destruct D as [vals [p [r [s1 [H1 [H2 H3]]]]]].
  destruct (shared_cell_same (fun _ => builtin pr) us (w_values w) (w_parser w) (fun _ => L) s1 p r H2) as [s2 [H4 H5]].
  pose proof (shared_ref_exact (fun _ => builtin pr) us (w_values w) (w_parser w)) as X. rewrite H2 in X. destruct X as [s3 [H6 H7]].
  exists vals, p, r, s1, s2, s3. cbn zeta. repeat (split; [assumption|]). intros k. rewrite H5, H7, H3. repeat split.
Qed.

(** ** The cases are met *)

(** Two flags that count together, and a third that ends the parsing after
    three; the reports remember the flag that was given last. *)
Definition counting : flag_report (list str) nat nat :=
  mkReport nat
    (fun v c => Ok (S v, parser c ++ [flag_arg c], if v =? 2 then Some v else None))
    (fun v c b => Ok (v, parser c, None))
    (fun v c x => Panic).
Example shared_counting :
  let us := [mkUse 7 0 [1%N] TSet; mkUse 8 0 [2%N] TSet; mkUse 7 0 [3%N] (TToggle true); mkUse 7 0 [4%N] TSet; mkUse 7 0 [5%N] TSet; mkUse 8 0 [6%N] TSet] in
  let direct := tell_uses (fun _ => counting) (fun _ => 0) [] us in
  let cell := tell_uses (fun _ => shared_cell counting) (fun _ => 0) [] us in
  match direct, cell with
  | Ok (s, p, r), Ok (t, q, r') =>
      (s 7, s 8, p, r) = (3, 1, [[1%N]; [2%N]; [4%N]; [5%N]], Some 2) /\ (t 7, t 8, q, r') = (2, 1, [[1%N]; [2%N]; [4%N]; [5%N]], Some 2)
  | _, _ => False
  end /\
  tell_uses (fun _ => shared_ref counting) (fun k => mkRef (k =? 8) 0) [] (skipn 1 us) = Panic.
Proof. repeat split. Qed.
(** A switch that is set by one flag and taken back by another. *)
Example shared_builtin_met :
  match tell_uses (fun _ => shared_cell (builtin collect)) (fun _ => VBool false) [] [mkUse 0 0 [1%N] TSet; mkUse 0 0 [2%N] (TToggle false); mkUse 1 0 [3%N] (TParse [])] with
  | Ok (s, p, r) => s 0 = VBool false /\ s 1 = VBool false /\ p = [Common (FlagUnexpectedValue [3%N] [])] /\ r = None
  | _ => False
  end.
Proof. repeat split. Qed.

Print Assumptions shared_ref_exact.
Print Assumptions shared_ref_borrowed.
Print Assumptions shared_cell_exact.
Print Assumptions shared_cell_same.
Print Assumptions shared_builtin.
