(** Proofs about signatures in buffers of any size. *)
From Verif Require Import Base DbusSigModel DbusSpec DbusSigAnnot DbusSigProofs DbusSigRefine DbusSigSpec DbusSigTheory DbusSigResults DbusMakeModel.
Local Open Scope N_scope.
Local Open Scope res_scope.

(** Nothing is left when the machine is done. *)
Lemma sdone_last n fs c rest t : n = size (prefix fs ++ c :: rest) -> sstep n fs c = SDone t -> rest = [].
Proof.
  intros Hn E. pose proof (sstep_text n fs c rest Hn) as S. rewrite E in S.
  destruct rest as [|x rest]; [reflexivity|]. exfalso.
  assert (Hn' : n = size (prefix fs ++ c :: (x + 1) :: rest)) by (rewrite Hn, !size_app, !size_cons; reflexivity).
  pose proof (sstep_text n fs c ((x + 1) :: rest) Hn') as S'. rewrite E in S'. cbn beta zeta in S, S'.
  rewrite S in S'. apply app_inv_head in S'. injection S'. lia.
Qed.

Section K.
Context (k : kind).
Hypothesis wf_kind : length_max k <= field_max k.
Notation nid := (node_id k).

Lemma wr_full fs x : wr (buf (snodes nid fs) []) (size (prefix fs)) x = Panic.
Proof.
  unfold wr, buf. rewrite app_nil_r, map_length.
  pose proof (snodes_size nid fs) as S. rewrite (proj2 (N.ltb_ge _ _)) by (unfold size in *; lia).
  reflexivity.
Qed.

(** Without room for another node. *)
Lemma iteration_full n c fs : size (prefix fs) + 1 <= length_max k ->
  iteration k n (size (prefix fs)) c (st k fs []) =
  match from_code c with
  | Some _ => if c <? 128 then Panic else Ok (Fail (ElementInvalid (size (prefix fs)) c))
  | None => Ok (Fail (if c <? 128 then ElementUnknown (size (prefix fs)) c else ElementInvalid (size (prefix fs)) c))
  end.
Proof.
  intros Hl. unfold iteration. destruct (c <? 128) eqn:L; cbn [negb]; [|now destruct (from_code c)].
  destruct (from_code c) as [e|]; [|reflexivity]. cbn [st st_up st_position st_nodes].
  assert (Ho : match fup fs with Some v => strict_sub (size (prefix fs)) v | None => Ok (size (prefix fs)) end
               = Ok (foff fs)).
  { pose proof (fup_foff fs) as F. destruct fs as [|f fs]; [reflexivity|].
    cbn [fup] in *. destruct F as [_ F]. rewrite strict_sub_ok by lia. f_equal. lia. }
  rewrite Ho. cbn [bind]. rewrite node_with_ok by (try exact wf_kind; lia). cbn [bind]. rewrite wr_full. reflexivity.
Qed.

Lemma loop_small n rest : forall fs tail,
  n = size (prefix fs ++ rest) -> n <= length_max k -> (length tail < length rest)%nat ->
  let r := parse_loop k n (size (prefix fs)) rest (st k fs tail) in
  (exists fs' used c rest', rest = used ++ c :: rest' /\ length used = length tail /\ prefix fs' = prefix fs ++ used /\
     match from_code c with
     | Some _ => r = Panic
     | None => exists e, r = Ok (inl e) /\ srun n fs rest = inl e
     end)
  \/ exists e a b, rest = a ++ b /\ (length a <= length tail)%nat /\ (forall b', srun n fs (a ++ b') = inl e) /\ r = Ok (inl e).
Proof.
  induction rest as [|c rest IH]; intros fs tail Hn Hl Ht r; [cbn in Ht; lia|].
  pose proof Hn as Hn'. rewrite size_app, size_cons in Hn'.
  destruct tail as [|x tail].
  - left. exists fs, [], c, rest. split; [reflexivity|]. split; [reflexivity|]. split; [now rewrite app_nil_r|].
    unfold r. cbn [parse_loop srun]. rewrite iteration_full by lia.
    destruct (from_code c) as [e|] eqn:E.
    + apply from_code_code in E. subst c. rewrite (proj2 (N.ltb_lt _ _)) by apply code_ascii. reflexivity.
    + cbn [bind]. eexists. split; [reflexivity|].
      rewrite sstep_bad; [reflexivity|]. intros e ->. rewrite code_from_code in E. discriminate.
  - cbn [length] in Ht. pose proof (iteration_ok k wf_kind n c fs x tail ltac:(lia)) as I.
    pose proof (sstep_text n fs c rest Hn) as S. unfold r. cbn [parse_loop].
    destruct (sstep n fs c) as [fs'|t|e] eqn:E; cbn [sim] in I; rewrite I; cbn [bind].
    + destruct S as [S Hfs].
      replace (size (prefix fs) + 1) with (size (prefix fs')) by (rewrite S, size_app; reflexivity).
      assert (Hn2 : n = size (prefix fs' ++ rest)) by (rewrite S, <- app_assoc; exact Hn).
      specialize (IH fs' tail Hn2 Hl ltac:(lia)). cbn zeta in IH.
      destruct IH as [(fs2 & used & d & rest' & E1 & E2 & E3 & E4)|(e & a & b & E1 & E2 & E3 & E4)].
      * left. exists fs2, (c :: used), d, rest'. split; [now rewrite E1|]. split; [cbn; now rewrite E2|].
        split; [rewrite E3, S, <- app_assoc; reflexivity|].
        destruct (from_code d); [exact E4|]. destruct E4 as (e & E4 & E5). exists e. split; [exact E4|].
        cbn [srun]. rewrite E. exact E5.
      * right. exists e, (c :: a), b. split; [now rewrite E1|]. split; [cbn; lia|]. split; [|exact E4].
        intros b'. cbn [srun app]. rewrite E. apply E3.
    + exfalso. rewrite (sdone_last n fs c rest t Hn E) in Ht. cbn in Ht. lia.
    + right. exists e, [c], rest. split; [reflexivity|]. split; [cbn; lia|]. split; [|reflexivity].
      intros b'. cbn [srun app]. now rewrite E.
Qed.

Lemma node_parse_small room s : size s <= length_max k -> (room < length s)%nat ->
  let stuck := exists fs c rest, s = prefix fs ++ c :: rest /\ length (prefix fs) = room /\ In c codes in
  let r := node_parse k (repeat None room) s in
  (stuck /\ r = Panic) \/ (~ stuck /\ exists e, r = Ok (inl e) /\ srun (size s) [] s = inl e).
Proof.
  intros Hl Hr stuck r. unfold r, node_parse. fold (size s). rewrite (proj2 (N.ltb_ge _ _) Hl).
  rewrite (proj2 (N.ltb_ge _ _)) by (unfold size; lia).
  pose proof (loop_small (size s) s [] (repeat None room) eq_refl Hl) as L. rewrite repeat_length in L.
  specialize (L Hr). cbn zeta in L.
  change (parse_loop k (size s) 0 s (St 0 None (repeat None room)))
    with (parse_loop k (size s) (size (prefix [])) s (st k [] (repeat None room))).
  destruct L as [(fs & used & c & rest & E1 & E2 & E3 & E4)|(e & a & b & E1 & E2 & E3 & E4)].
  - cbn [prefix app] in E3. subst used.
    destruct (from_code c) as [e|] eqn:C.
    + left. split; [|exact E4]. exists fs, c, rest. split; [exact E1|]. split; [exact E2|].
      apply from_code_codes. rewrite C. discriminate.
    + right. split; [|exact E4]. intros (fs' & c' & rest' & P & Q & R).
      rewrite E1 in P. assert (P2 : c :: rest = c' :: rest').
      { apply (f_equal (skipn room)) in P. rewrite !skipn_app, E2, Q, Nat.sub_diag in P. rewrite (skipn_all2 (prefix fs)), (skipn_all2 (prefix fs')) in P by lia. exact P. }
      injection P2 as -> _.
      apply from_code_codes in R. contradiction.
  - right. split; [|exists e; split; [exact E4|rewrite E1 at 2; apply E3]].
    intros (fs' & c' & rest' & P & Q & R). rewrite E1 in P.
    assert (F : prefix fs' = a ++ skipn (length a) (prefix fs')).
    { rewrite <- (firstn_skipn (length a) (prefix fs')) at 1. f_equal.
      apply (f_equal (firstn (length a))) in P. rewrite firstn_app, firstn_all, Nat.sub_diag, app_nil_r in P.
      rewrite firstn_app in P. replace (length a - length (prefix fs'))%nat with 0%nat in P by lia.
      rewrite app_nil_r in P. now symmetry. }
    assert (G : forall b', srun (size s) fs' b' = inl e).
    { intros b'. rewrite <- srun_prefix, F, <- app_assoc. apply E3. }
    pose proof (G [200]) as G1. pose proof (G [201]) as G2. cbn [srun] in G1, G2.
    rewrite sstep_bad in G1, G2 by (intros x Hx; pose proof (code_ascii x); lia).
    cbn in G1, G2. congruence.
Qed.
End K.

Definition unit (s : list N) : N := if size s <=? 31 then 1 else 6.
Lemma unit_coeff s : unit s = size_coeff (kind_for s).
Proof. unfold unit, kind_for. now destruct (size s <=? 31). Qed.

Lemma kind_max s : size s < 2 ^ 61 -> size s <= length_max (kind_for s).
Proof.
  intros H. unfold kind_for. destruct (N.leb_spec (size s) 31); [assumption|].
  change (length_max node64) with (2 ^ 61 - 1). lia.
Qed.

Lemma parse_small fuel data s : size s < 2 ^ 61 -> data / unit s < size s ->
  let stuck := exists fs c rest, s = prefix fs ++ c :: rest /\ size (prefix fs) = data / unit s /\ In c codes in
  (stuck /\ sig_parse fuel data s = Panic)
  \/ (~ stuck /\ exists e, sig_parse fuel data s = Ok (inl e) /\ sig_new fuel s = Ok (inl e)).
Proof.
  intros H D stuck. rewrite (sig_new_ok fuel s H).
  pose proof (node_parse_small _ (kind_wf s) (N.to_nat (data / unit s)) s (kind_max s H)) as P.
  specialize (P ltac:(unfold size in *; lia)). cbn zeta in P.
  assert (Q : stuck <-> exists fs c rest, s = prefix fs ++ c :: rest /\ length (prefix fs) = N.to_nat (data / unit s) /\ In c codes).
  { unfold stuck. split; intros (fs & c & rest & A & B & C); exists fs, c, rest; repeat split; try assumption;
      unfold size in *; lia. }
  rewrite <- Q in P. unfold sig_parse. fold (size s). change (length_max node8) with 31. fold (kind_for s).
  rewrite <- unit_coeff.
  destruct P as [[P1 P2]|[P1 (e & P2 & P3)]]; [left|right]; (split; [assumption|]); rewrite P2; cbn [bind]; [reflexivity|].
  exists e. split; [reflexivity|]. now rewrite P3.
Qed.

Lemma parse_too_long fuel data s : 2 ^ 61 <= size s -> sig_parse fuel data s = Ok (inl DataExceeded).
Proof.
  intros H. unfold sig_parse. fold (size s). change (length_max node8) with 31.
  rewrite (proj2 (N.leb_gt (size s) 31)) by lia.
  unfold node_parse. fold (size s). rewrite (proj2 (N.ltb_lt (length_max node64) (size s)))
    by (change (length_max node64) with (2 ^ 61 - 1); lia). reflexivity.
Qed.
