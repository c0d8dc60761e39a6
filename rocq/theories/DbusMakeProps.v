(** C16 for buffers of any size, and C98: the ways to create a signature. *)
From Coq Require Import Ascii String.
From Verif Require Import Base DbusSigModel DbusSpec DbusSigAnnot DbusSigSpec DbusSigTheory DbusObs DbusSigResults DbusMakeModel DbusMakeProofs.
Local Open Scope N_scope.
Local Open Scope res_scope.

(** C16: exactly what happens for every text and every size of the buffer, in
    words of 64 bits.  A node takes one word if the text has at most 31
    characters, and six otherwise.
    - Too long a text is an error.
    - With enough room errors are those of the text, a signature is followed by
      memory that is not written, and if there is a part of a node left the
      function does not return.
    - With less room it panics exactly if it gets to an element for which there
      is none: all before are proper beginnings of a type.
    (Full property: it never panics and always ends.) *)
Theorem sig_parse_exact_partial : forall fuel data s w, w = (if size s <=? 31 then 1 else 6) ->
  (2 ^ 61 <= size s -> sig_parse fuel data s = Ok (inl DataExceeded))
  /\ (size s < 2 ^ 61 -> size s <= data / w ->
      exists r, sig_new fuel s = Ok r /\
      sig_parse fuel data s =
      match r with
      | inl e => Ok (inl e)
      | inr sg =>
          if data mod w =? 0
          then Ok (inr (mkSig (s_kind sg) (s_nodes sg ++ repeat None (N.to_nat (data / w - size s)))))
          else NoFuel
      end)
  /\ (size s < 2 ^ 61 -> data / w < size s ->
      let stuck := exists fs c rest, s = prefix fs ++ c :: rest /\ size (prefix fs) = data / w /\ In c codes in
      (stuck -> sig_parse fuel data s = Panic)
      /\ (~ stuck -> exists e, sig_parse fuel data s = Ok (inl e) /\ sig_new fuel s = Ok (inl e))).
Proof.
  intros fuel data s w W. fold (unit s) in W. subst w.
  split; [apply parse_too_long|]. split.
  - intros H D.
    assert (U : unit s <> 0) by (unfold unit; destruct (size s <=? 31); discriminate).
    assert (D' : size s * unit s <= data).
    { rewrite N.mul_comm. apply N.le_trans with (unit s * (data / unit s)); [now apply N.mul_le_mono_l|].
      now apply N.mul_div_le. }
    destruct (parses_always fuel s H) as [[e|sg] E]; (eexists; split; [exact E|]).
    + rewrite (sig_new_ok fuel s H) in E. destruct (srun (size s) [] s) as [e'|t] eqn:R; [|discriminate].
      injection E as ->. unfold sig_parse. fold (size s). change (length_max node8) with 31. fold (kind_for s).
      rewrite (node_parse_ok _ (kind_wf s)); [now rewrite R|now apply kind_max|].
      rewrite repeat_length, <- unit_coeff. unfold size in *. lia.
    + destruct (N.eqb_spec (data mod unit s) 0) as [M|M].
      * destruct (parse_fits fuel data s H _ eq_refl D' M) as (r & P & Q). rewrite P.
        destruct r as [e|sg']; [rewrite E in Q; discriminate|].
        destruct Q as (sg2 & Q1 & Q2 & Q3). rewrite E in Q1. injection Q1 as <-.
        destruct sg' as [k ns]. cbn in Q2, Q3. rewrite Q2, Q3. reflexivity.
      * destruct (sig_new_sig _ _ _ E) as (t & P & _).
        apply (sig_parse_large fuel data s t H P); rewrite <- unit_coeff; assumption.
  - intros H D stuck. destruct (parse_small fuel data s H D) as [[A B]|[A B]]; split; intros C; try assumption; contradiction.
Qed.
Print Assumptions sig_parse_exact_partial.

Example sig_parse_small_panics :
  sig_parse 0 2 (bytes "a{sv}") = Panic
  /\ sig_parse 0 2 (bytes "a?sv}") = Ok (inl (ElementUnknown 1 63))
  /\ sig_parse 0 2 (bytes "ayssss") = Ok (inl (SignatureSequence 2))
  /\ exists sg, sig_parse 0 7 (bytes "a{sv}") = Ok (inr sg) /\ nth_error (s_nodes sg) 6 = Some None.
Proof. repeat (split; [vm_compute; reflexivity|]). eexists. split; vm_compute; reflexivity. Qed.

(** C98: in memory of the computed size, allocated or static, every way to
    create a signature gives the same one, all of whose memory is initialised,
    or the same error. *)
Theorem sig_make_partial : forall fuel s, size s < 2 ^ 61 ->
  exists words r, size_for_length (size s) = Ok words /\ sig_new fuel s = Ok r /\
  let complete := match r with inl e => inl e | inr sg => inr (Some sg) end in
  sig_alloc fuel s = Ok complete /\ sig_try_make fuel words s = Ok complete /\
  sig_literal fuel s = match r with inl _ => Panic | inr sg => Ok (Some sg) end /\
  forall sg, r = inr sg -> Forall (fun n => n <> None) (s_nodes sg) /\ sig_clone sg = sg.
Proof.
  intros fuel s H. pose proof (sig_new_ok fuel s H) as E.
  assert (L : exists words, size_for_length (size s) = Ok words /\ sig_parse fuel words s = sig_new fuel s).
  { unfold sig_new. fold (size s). destruct (size_for_length (size s)) as [w| |] eqn:W.
    - exists w. split; reflexivity.
    - unfold sig_new in E. fold (size s) in E. rewrite W in E. destruct (srun (size s) [] s); discriminate.
    - unfold sig_new in E. fold (size s) in E. rewrite W in E. destruct (srun (size s) [] s); discriminate. }
  destruct L as (words & L1 & L2).
  destruct (parses_always fuel s H) as [r R]. exists words, r. split; [exact L1|]. split; [exact R|].
  assert (A : forall sg, r = inr sg -> forallb is_some (s_nodes sg) = true /\ Forall (fun n => n <> None) (s_nodes sg)).
  { intros sg ->. rewrite E in R. destruct (srun (size s) [] s) as [e|t]; [discriminate|].
    assert (X : s_nodes sg = map Some (annot (node_id (kind_for s)) t)) by (change sg with (snd (tt, sg)); injection R as <-; reflexivity).
    rewrite X. generalize (annot (node_id (kind_for s)) t). intros ns.
    split; [apply forallb_forall|apply Forall_forall]; intros n N; apply in_map_iff in N as (x & <- & _); easy. }
  unfold sig_literal, sig_alloc, sig_make, sig_try_make. fold (size s). rewrite L1. cbn [bind]. rewrite L2, R. cbn [bind].
  destruct r as [e|sg]; cbn zeta.
  - repeat split; discriminate.
  - destruct (A sg eq_refl) as [A1 A2]. unfold assume_init. rewrite A1. cbn [bind].
    repeat (split; [reflexivity|]). intros x X. injection X as <-. split; [exact A2|]. now destruct sg.
Qed.
Print Assumptions sig_make_partial.

(** C98: in static memory of any size what is returned, if anything is, is the
    error of the text, its signature, or memory that is not initialised. *)
Theorem sig_make_any_partial : forall fuel words s r, sig_try_make fuel words s = Ok r ->
  match r with
  | inl e => sig_new fuel s = Ok (inl e) \/ 2 ^ 61 <= size s
  | inr (Some sg) => sig_new fuel s = Ok (inr sg)
  | inr None => (exists sg, sig_new fuel s = Ok (inr sg)) /\
                forall need, size_for_length (size s) = Ok need -> need < words
  end.
Proof.
  intros fuel words s r R. destruct (N.lt_ge_cases (size s) (2 ^ 61)) as [H|H].
  2:{ unfold sig_try_make in R. rewrite parse_too_long in R by exact H. injection R as <-. now right. }
  destruct (sig_parse_exact_partial fuel words s _ eq_refl) as (_ & P1 & P2). fold (unit s) in P1, P2.
  unfold sig_try_make in R. destruct (N.lt_ge_cases (words / unit s) (size s)) as [D|D].
  - destruct (parse_small fuel words s H D) as [[_ A]|[_ (e & A & B)]]; rewrite A in R; [discriminate|].
    injection R as <-. now left.
  - destruct (P1 H D) as (q & Q & P). rewrite P in R. destruct q as [e|sg].
    + injection R as <-. now left.
    + destruct (words mod unit s =? 0) eqn:M; [|discriminate]. injection R as <-. unfold assume_init. cbn [s_nodes].
      destruct (sig_make_partial fuel s H) as (need & r' & N1 & N2 & _ & _ & _ & N3). rewrite Q in N2. injection N2 as <-.
      destruct (N3 sg eq_refl) as [N4 N5].
      rewrite forallb_app. destruct (N.to_nat (words / unit s - size s)) as [|m] eqn:Z.
      * cbn [repeat forallb]. rewrite app_nil_r, andb_true_r.
        replace (forallb is_some (s_nodes sg)) with true; [now destruct sg|]. symmetry. apply forallb_forall.
        intros x X. rewrite Forall_forall in N4. specialize (N4 x X). now destruct x.
      * cbn [repeat forallb is_some]. rewrite andb_false_r. split; [now exists sg|].
        intros need' N'. rewrite N1 in N'. injection N' as <-.
        assert (S : size s < words / unit s) by lia.
        assert (U : unit s <> 0) by (unfold unit; destruct (size s <=? 31); discriminate).
        assert (need = size s * unit s).
        { unfold size_for_length in N1. unfold unit. change (length_max node8) with 31 in N1.
          destruct (size s <=? 31); [injection N1 as <-; reflexivity|].
          destruct (size s <=? length_max node64); [|discriminate]. cbn [bind] in N1.
          destruct (size s * size_coeff node64 <? 2 ^ 64); [|discriminate]. cbn [bind] in N1. injection N1 as <-. reflexivity. }
        subst need. apply N.lt_le_trans with (unit s * (words / unit s)); [|now apply N.mul_div_le].
        rewrite (N.mul_comm (size s)). apply N.mul_lt_mono_pos_l; lia.
Qed.
Print Assumptions sig_make_any_partial.

(** C98 is false of static memory larger than needed: a signature is returned
    part of whose memory is not initialised. *)
Theorem sig_make_refuted : exists words s, (exists t, s = print t) /\
  (exists need, size_for_length (size s) = Ok need /\ need <= words) /\
  forall fuel, sig_try_make fuel words s = Ok (inr None) /\ sig_make fuel words s = Ok None.
Proof.
  exists 2, (bytes "u"). split; [exists (TBasic BUint32); reflexivity|].
  split; [exists 1; split; [reflexivity|discriminate]|].
  intros []; split; reflexivity.
Qed.
Print Assumptions sig_make_refuted.

Example sig_literal_asv : exists sg, sig_literal 0 (bytes "a{sv}") = Ok (Some sg) /\ sig_new 0 (bytes "a{sv}") = Ok (inr sg)
  /\ sig_to_string sg = Ok (bytes "a{sv}") /\ sig_literal 0 (bytes "a{vs}") = Panic.
Proof.
  eexists. split; [vm_compute; reflexivity|]. split; [vm_compute; reflexivity|].
  split; vm_compute; reflexivity.
Qed.
