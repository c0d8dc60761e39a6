From Verif Require Import Base OwnSpec OwnModel OwnProofs PinModel.

(** No allocation is at address zero. *)
Definition nonzero (h : heap) : Prop := forall c, In c h -> base c <> 0%N.

Lemma at_base_nonzero f : (forall c c' e, f c = Some (c', e) -> base c' = base c) ->
  forall h p h' e, at_base h p f = Some (h', e) -> nonzero h -> nonzero h'.
Proof.
  intros F. induction h as [|c h IH]; intros p h' e H Z; [discriminate|]. cbn [at_base] in H.
  destruct (live c && (base c =? p)%N).
  - destruct (f c) as [(c', e')|] eqn:E; [|discriminate]. injection H as <- <-. intros d [<-|I].
    + rewrite (F _ _ _ E). apply Z. now left.
    + apply Z. now right.
  - destruct (at_base h p f) as [(h1, e1)|] eqn:E; [|discriminate]. injection H as <- <-. intros d [<-|I].
    + apply Z. now left.
    + revert d I. apply (IH _ _ _ E). intros d I. apply Z. now right.
Qed.

Lemma drop_nonzero h q h' e : drop_pointer h q = Some (h', e) -> nonzero h -> nonzero h'.
Proof.
  destruct q; cbn [drop_pointer]; intros H; try (injection H as <- <-; auto); revert H; apply at_base_nonzero;
    intros c c' x; destruct (counted c); cbn [negb]; try discriminate.
  - intros [= <- _]. reflexivity.
  - destruct (strong c) as [|[|n]]; try discriminate; intros [= <- _]; reflexivity.
  - destruct (strong c) as [|[|n]]; try discriminate; intros [= <- _]; reflexivity.
Qed.

Lemma clone_nonzero h q h' q' : clone_pointer h q = Some (h', q') -> nonzero h -> nonzero h'.
Proof.
  destruct q; cbn [clone_pointer]; try discriminate; [intros [= <- _]; auto| |].
  all: destruct (at_base h p _) as [(h1, e1)|] eqn:E; [|discriminate]; intros [= <- _]; revert E; apply at_base_nonzero;
    intros c c' x; destruct (counted c); [|discriminate]; intros [= <- _]; reflexivity.
Qed.

Lemma exec_nonzero place m p m' e : (forall h, place h <> 0%N) -> exec place m p = Some (m', e) ->
  nonzero (mem m) -> nonzero (mem m').
Proof.
  intros P H Z. destruct p; cbn [exec] in H.
  - injection H as <- <-. intros c I. cbn [mem] in I. apply in_app_iff in I as [I|[<-|[]]]; [now apply Z|apply P].
  - destruct (local m i) as [[q|]|]; try discriminate. destruct (clone_pointer (mem m) q) as [(h, q')|] eqn:E; [|discriminate].
    injection H as <- <-. exact (clone_nonzero _ _ _ _ E Z).
  - destruct (local m i) as [[q|]|]; try discriminate.
    + destruct (drop_pointer (mem m) q) as [(h, e')|] eqn:E; [|discriminate].
      injection H as <- <-. exact (drop_nonzero _ _ _ _ E Z).
    + injection H as <- <-. exact Z.
  - destruct (local m i) as [[q|]|]; try discriminate. injection H as <- <-. exact Z.
  - destruct (local m i) as [[q|]|]; try discriminate. injection H as <- <-. exact Z.
  - destruct (local m i) as [[q|]|]; try discriminate. injection H as <- <-. exact Z.
  - destruct (local m i) as [v|]; try discriminate. destruct (at_data _ _); [|discriminate]. injection H as <- <-. exact Z.
  - destruct (local m i) as [v|]; try discriminate. injection H as <- <-. exact Z.
  - destruct (local m i) as [v|]; try discriminate. destruct (local m j); [|discriminate]. injection H as <- <-. exact Z.
Qed.

Lemma execs_nonzero place ps : (forall h, place h <> 0%N) -> forall m m' es, execs place m ps = Some (m', es) ->
  nonzero (mem m) -> nonzero (mem m').
Proof.
  intros P. induction ps as [|p ps IH]; intros m m' es H Z; cbn [execs] in H; [injection H as <- <-; exact Z|].
  destruct (exec place m p) as [(m1, e1)|] eqn:E; [|discriminate].
  destruct (execs place m1 ps) as [(m2, e2)|] eqn:G; [|discriminate]. injection H as <- <-.
  exact (IH _ _ _ G (exec_nonzero _ _ _ _ _ P E Z)).
Qed.

(** Nothing is found where nothing lives. *)
Lemma at_data_none h p : (forall i c, nth_error h i = Some c -> live c = true -> data c <> p) -> at_data h p = None.
Proof.
  induction h as [|c h IH]; intros H; [reflexivity|]. cbn [at_data]. destruct (live c) eqn:L; cbn [andb].
  - destruct (N.eqb_spec (data c) p) as [E|_]; [destruct (H 0 c eq_refl L E)|]. apply IH. intros i d I. exact (H (S i) d I).
  - apply IH. intros i d I. exact (H (S i) d I).
Qed.

(** What dropping a pointer does to its object. *)
Definition goes (w : world) (x : owner) : bool := owning (via x) && last_owner w (object x).

Lemma drop_image w m i x : related w m -> var w i = Some x -> wrapped x = false ->
  exists p c h e, local m i = Some (Pointer p) /\ nth_error (mem m) (object x) = Some c /\ live c = true
    /\ deref p = data c /\ at_data (mem m) (data c) = Some c /\ val c = value_of w (object x)
    /\ drop_pointer (mem m) p = Some (h, e)
    /\ (if goes w x then e = Destroyed (value_of w (object x)) /\ at_data h (data c) = None
        else e = Silent /\ exists c', at_data h (data c) = Some c' /\ val c' = val c).
Proof.
  intros R V W. destruct (var_local _ _ _ _ R V) as (c & t & V1 & L & _ & M & T & Lc & Oc & On).
  pose proof (r_apart _ _ R) as A. destruct (r_cells _ _ R _ _ _ T M) as (Vc & K). specialize (K Lc).
  assert (D : at_data (mem m) (data c) = Some c) by (eapply at_data_found; eauto).
  assert (Ev : val c = value_of w (object x)) by (unfold value_of; now rewrite T).
  assert (B : object x < length (mem m)) by (eapply nth_lt; eauto).
  unfold image in L. rewrite W in L.
  assert (Gone : at_data (upd (mem m) (object x) (dead c)) (data c) = None).
  { apply at_data_none. intros j d J Ld. destruct (Nat.eq_dec (object x) j) as [<-|N].
    - rewrite nth_upd_eq in J by auto. injection J as <-. discriminate.
    - rewrite nth_upd_neq in J by auto. intros E. exact (data_apart _ A _ _ _ _ N M J Lc Ld (eq_sym E)). }
  assert (Kept : forall n, exists c', at_data (upd (mem m) (object x) (count c n)) (data c) = Some c' /\ val c' = val c).
  { intros n. exists (count c n). split; [|reflexivity]. change (data c) with (data (count c n)).
    apply at_data_found with (i := object x); [|now apply nth_upd_eq|exact Lc].
    apply (apart_kept (mem m)); auto.
    - now rewrite upd_length.
    - intros o c' N L'. destruct (Nat.eq_dec (object x) o) as [<-|Q].
      + rewrite nth_upd_eq in N by auto. injection N as <-. exists c. repeat split; auto.
      + rewrite nth_upd_neq in N by auto. exists c'. repeat split; auto. }
  assert (P : owning (via x) = true -> 1 <= owners w (object x)).
  { intros O. eapply tally_pos; [exact V1|now rewrite owns_self]. }
  unfold goes, last_owner. rewrite T.
  destruct (via x) eqn:Vx; cbn [owning andb] in *.
  - do 4 eexists. split; [exact L|]. split; [exact M|]. split; [exact Lc|]. split; [reflexivity|]. split; [exact D|]. split; [exact Ev|].
    split; [reflexivity|]. split; [reflexivity|]. exists c. auto.
  - do 4 eexists. split; [exact L|]. split; [exact M|]. split; [exact Lc|]. split; [reflexivity|]. split; [exact D|]. split; [exact Ev|].
    split; [reflexivity|]. split; [reflexivity|]. exists c. auto.
  - specialize (Oc eq_refl). specialize (P eq_refl). cbn [is_counted] in Oc. rewrite Oc in K.
    do 4 eexists. split; [exact L|]. split; [exact M|]. split; [exact Lc|].
    split; [unfold data; now rewrite Oc|]. split; [exact D|]. split; [exact Ev|].
    split; [cbn [drop_pointer]; rewrite (at_base_found _ _ A _ _ M Lc), Oc; reflexivity|].
    replace (owners w (object x) =? 1) with true by (symmetry; apply Nat.eqb_eq; lia).
    replace (forgotten t =? 0) with true by (symmetry; apply Nat.eqb_eq; lia). cbn [andb]. rewrite Ev. auto.
  - specialize (Oc eq_refl). specialize (P eq_refl). cbn [is_counted] in Oc. rewrite Oc in K.
    assert (DP : drop_pointer (mem m) (PRc (base c)) = match strong c with
      | 0 => None | 1 => Some (upd (mem m) (object x) (dead c), Destroyed (val c))
      | S n => Some (upd (mem m) (object x) (count c n), Silent) end).
    { cbn [drop_pointer]. rewrite (at_base_found _ _ A _ _ M Lc), Oc. cbn [negb]. now destruct (strong c) as [|[|n]]. }
    destruct (strong c) as [|[|n]] eqn:Sc; [lia| |];
    do 4 eexists; (split; [exact L|]); (split; [exact M|]); (split; [exact Lc|]);
    (split; [cbn [deref]; unfold data; now rewrite Oc|]); (split; [exact D|]); (split; [exact Ev|]); (split; [exact DP|]).
    + replace (owners w (object x) =? 1) with true by (symmetry; apply Nat.eqb_eq; lia).
      replace (forgotten t =? 0) with true by (symmetry; apply Nat.eqb_eq; lia). cbn [andb]. rewrite Ev. auto.
    + replace ((owners w (object x) =? 1) && (forgotten t =? 0)) with false; [split; [reflexivity|apply Kept]|].
      symmetry. apply andb_false_iff. rewrite !Nat.eqb_neq. lia.
  - specialize (Oc eq_refl). specialize (P eq_refl). cbn [is_counted] in Oc. rewrite Oc in K.
    assert (DP : drop_pointer (mem m) (PArc (base c)) = match strong c with
      | 0 => None | 1 => Some (upd (mem m) (object x) (dead c), Destroyed (val c))
      | S n => Some (upd (mem m) (object x) (count c n), Silent) end).
    { cbn [drop_pointer]. rewrite (at_base_found _ _ A _ _ M Lc), Oc. cbn [negb]. now destruct (strong c) as [|[|n]]. }
    destruct (strong c) as [|[|n]] eqn:Sc; [lia| |];
    do 4 eexists; (split; [exact L|]); (split; [exact M|]); (split; [exact Lc|]);
    (split; [cbn [deref]; unfold data; now rewrite Oc|]); (split; [exact D|]); (split; [exact Ev|]); (split; [exact DP|]).
    + replace (owners w (object x) =? 1) with true by (symmetry; apply Nat.eqb_eq; lia).
      replace (forgotten t =? 0) with true by (symmetry; apply Nat.eqb_eq; lia). cbn [andb]. rewrite Ev. auto.
    + replace ((owners w (object x) =? 1) && (forgotten t =? 0)) with false; [split; [reflexivity|apply Kept]|].
      symmetry. apply andb_false_iff. rewrite !Nat.eqb_neq. lia.
Qed.
