(** Properties of the conversions of pinned pointers into raw pointers (C99). *)
From Verif Require Import Base OwnSpec OwnModel OwnProofs OwnProps PinModel PinProofs.

(* ------------------------------------------------------------------ *)
(** ** C99: a pinned pointer becomes a raw pointer to its target

    The state is any that a program can reach ([run], the rules of ownership of
    OwnSpec), wherever the allocator puts things.  [x] is the pointer in variable
    [i]; the conversion consumes it. *)

(** The object can be read through [a], and its value is [v]. *)
Definition readable (h : heap) (a : addr) (v : Z) : Prop := exists c, at_data h a = Some c /\ val c = v.

(** Of a reference, and of an owner that is not the last one, the conversion gives
    the address of the object, which is not null; nothing is destroyed, and the object
    can be read through the raw pointer. *)
Theorem pin_raw_partial place ps w es i x :
  fits place -> (forall h, place h <> 0%N) -> run start ps = Some (w, es) ->
  var w i = Some x -> wrapped x = false -> owning (via x) && last_owner w (object x) = false ->
  exists m es' p h a, execs place boot ps = Some (m, es') /\ local m i = Some (Pointer p)
    /\ pin_as_ptr (mem m) p = Some (h, Silent, a) /\ nonnull_from_pin_ref (mem m) p = Some (h, Silent, a)
    /\ option_map snd (exec place m (Where i)) = Some (At a) /\ a <> 0%N
    /\ readable h a (value_of w (object x)).
Proof.
  intros F P H V W G. destruct (run_execs place ps F _ _ _ _ related_start H) as (m & E & R & _).
  assert (Z : nonzero (mem m)) by (eapply execs_nonzero; eauto; intros c []).
  destruct (drop_image _ _ _ _ R V W) as (p & c & h & e & L & M & Lc & D & _ & Ev & Dp & Q).
  unfold goes in Q. rewrite G in Q. destruct Q as (-> & Q).
  assert (N : data c <> 0%N).
  { specialize (Z c (nth_error_In _ _ M)). unfold data. destruct (counted c); [unfold header|]; lia. }
  assert (Pa : pin_as_ptr (mem m) p = Some (h, Silent, data c)) by (unfold pin_as_ptr; now rewrite Dp, D).
  exists m. do 2 eexists. exists h, (data c). split; [exact E|]. split; [exact L|]. split; [exact Pa|]. split.
  { unfold nonnull_from_pin_ref, nonnull_new_unchecked. rewrite Pa. apply N.eqb_neq in N. now rewrite N. }
  split; [cbn [exec]; rewrite L; cbn [option_map snd target]; now rewrite D|]. split; [exact N|].
  destruct Q as (c' & Q1 & Q2). exists c'. split; [exact Q1|]. congruence.
Qed.
Print Assumptions pin_raw_partial.

(** Of the last owner it does not: a safe function destroys the object and
    returns an address at which nothing lives. This is so for {e every} last owner. *)
Theorem pin_raw_dangling place ps w es i x :
  fits place -> (forall h, place h <> 0%N) -> run start ps = Some (w, es) ->
  var w i = Some x -> wrapped x = false -> owning (via x) && last_owner w (object x) = true ->
  exists m es' p h a, execs place boot ps = Some (m, es') /\ local m i = Some (Pointer p)
    /\ readable (mem m) a (value_of w (object x))
    /\ pin_as_ptr (mem m) p = Some (h, Destroyed (value_of w (object x)), a)
    /\ nonnull_from_pin_ref (mem m) p = Some (h, Destroyed (value_of w (object x)), a)
    /\ forall v, ~ readable h a v.
Proof.
  intros F P H V W G. destruct (run_execs place ps F _ _ _ _ related_start H) as (m & E & R & _).
  assert (Z : nonzero (mem m)) by (eapply execs_nonzero; eauto; intros c []).
  destruct (drop_image _ _ _ _ R V W) as (p & c & h & e & L & M & Lc & D & Ad & Ev & Dp & Q).
  unfold goes in Q. rewrite G in Q. destruct Q as (-> & Q).
  assert (N : data c <> 0%N).
  { specialize (Z c (nth_error_In _ _ M)). unfold data. destruct (counted c); [unfold header|]; lia. }
  assert (Pa : pin_as_ptr (mem m) p = Some (h, Destroyed (value_of w (object x)), data c)) by (unfold pin_as_ptr; now rewrite Dp, D).
  exists m. do 2 eexists. exists h, (data c). split; [exact E|]. split; [exact L|].
  split; [exists c; split; [exact Ad|exact Ev]|]. split; [exact Pa|]. split.
  { unfold nonnull_from_pin_ref, nonnull_new_unchecked. rewrite Pa. apply N.eqb_neq in N. now rewrite N. }
  intros v (c' & Q1 & _). congruence.
Qed.
Print Assumptions pin_raw_dangling.

(** So the property as a user would state it, that the raw pointer leads to the
    target, fails for a pinned box. *)
Theorem pin_raw_refuted :
  exists m p h a, execs behind boot [New Box 7] = Some (m, [Silent]) /\ local m 0 = Some (Pointer p)
    /\ readable (mem m) a 7 /\ pin_as_ptr (mem m) p = Some (h, Destroyed 7, a) /\ pin_as_mut_ptr (mem m) p = Some (h, Destroyed 7, a)
    /\ forall v, ~ readable h a v.
Proof.
  do 3 eexists. exists 4096%N. split; [reflexivity|]. split; [reflexivity|]. split; [eexists; split; reflexivity|].
  split; [reflexivity|]. split; [reflexivity|]. intros v (c & H & _). discriminate.
Qed.
Print Assumptions pin_raw_refuted.

(** The mutable form exists for mutable references and boxes, and is the same. *)
Theorem pin_raw_mut h p :
  (nonnull_from_pin_mut h p = nonnull_from_pin_ref h p /\ pin_as_mut_ptr h p = pin_as_ptr h p)
  \/ (pin_as_mut_ptr h p = None /\ exists a, p = PRef a \/ p = PRc a \/ p = PArc a).
Proof. destruct p; cbn; try (left; split; reflexivity); right; split; eauto. Qed.
Print Assumptions pin_raw_mut.

(** A wrapper is safe to turn into a raw pointer, whatever it was made from: it
    owns its object for ever, so the object can be read. Pinned references become
    the wrappers that references become. *)
Theorem pin_raw_once place ps w es i x :
  fits place -> run start ps = Some (w, es) ->
  var w i = Some x -> wrapped x = true ->
  exists m es' o h a, execs place boot ps = Some (m, es') /\ local m i = Some (Once o)
    /\ once_into_ptr (mem m) o = Some (h, Silent, a) /\ option_map snd (exec place m (Where i)) = Some (At a)
    /\ readable h a (value_of w (object x)).
Proof.
  intros F H V W. destruct (run_execs place ps F _ _ _ _ related_start H) as (m & E & R & _).
  destruct (var_local _ _ _ _ R V) as (c & t & V1 & L & _ & M & T & Lc & _).
  unfold image in L. rewrite W in L. do 5 eexists. split; [exact E|]. split; [exact L|]. split; [reflexivity|].
  split; [cbn [exec]; rewrite L; reflexivity|]. exists c. split; [eapply at_data_found; eauto using r_apart|].
  unfold value_of. rewrite T. exact (proj1 (r_cells _ _ R _ _ _ T M)).
Qed.
Print Assumptions pin_raw_once.

Theorem pin_once a : pin_from_ref a = into_deref (PRef a) /\ pin_from_mut a = into_deref (PMut a).
Proof. split; reflexivity. Qed.
Print Assumptions pin_once.

(** A clone of a counted pointer, a reference and a restored wrapper; then the last owner. *)
Example pin_raw_case :
  exists w es x y, run start [New Rc 7; Clone 0; New Ref 9] = Some (w, es) /\ var w 1 = Some x /\ wrapped x = false
    /\ owning (via x) && last_owner w (object x) = false
    /\ var w 2 = Some y /\ owning (via y) && last_owner w (object y) = false
    /\ (forall h, behind h <> 0%N).
Proof.
  do 4 eexists. split; [reflexivity|]. do 5 (split; [reflexivity|]).
  induction h as [|c h IH]; unfold behind; cbn [fold_right]; lia.
Qed.
Example pin_raw_dangling_case :
  exists w es x, run start [New Rc 7; Clone 0; Drop 0] = Some (w, es) /\ var w 1 = Some x /\ wrapped x = false
    /\ owning (via x) && last_owner w (object x) = true.
Proof. do 3 eexists. do 3 (split; [reflexivity|]). reflexivity. Qed.
Example pin_raw_once_case :
  exists w es x, run start [New Rc 7; Into 0] = Some (w, es) /\ var w 0 = Some x /\ wrapped x = true.
Proof. do 3 eexists. do 2 (split; [reflexivity|]). reflexivity. Qed.
