(** Proofs about the flag that marks types of which the wire format depends on the
    position. *)
From Verif Require Import Base DbusSpec DbusSigModel DbusSigAnnot DbusSigTheory DbusSigProofs DbusSigRefine DbusSigSpec DbusObs DbusCursorProofs DbusCursorQueries DbusSigResults IoMapProofs DvarModel DvarSpec DvarProofs DvarEncode DvarLossSpec DvarLoss DvarFixed.
Local Open Scope N_scope.

(** * What is not marked *)
Lemma padding_own pos k a : padding (pos + k * 2 ^ a) a = padding pos a.
Proof. unfold padding. rewrite pad_shift by apply pow_pos. f_equal. f_equal. lia. Qed.
Definition steady big t := forall v pos k, marshal big t v (pos + k * 2 ^ dvar_align t) = marshal big t v pos.
Lemma steady_all big t : steady big t -> forall vs pos k,
  marshal_all big (repeat t (length vs)) vs (pos + k * 2 ^ dvar_align t) = marshal_all big (repeat t (length vs)) vs pos.
Proof.
  intros H. induction vs as [|v vs IH]; intros pos k; cbn [length repeat marshal_all]; [reflexivity|].
  rewrite H. destruct (marshal big t v pos) as [b|]; [|reflexivity].
  replace (pos + k * 2 ^ dvar_align t + size b) with (pos + size b + k * 2 ^ dvar_align t) by lia. rewrite IH. reflexivity.
Qed.
Lemma four a : a <= 2 -> exists c, 4 = c * 2 ^ a.
Proof. intros H. exists (2 ^ (2 - a)). rewrite <- N.pow_add_r. replace (2 - a + a) with 2 by lia. reflexivity. Qed.
Theorem unmarked big t : r_mis t = false -> steady big t.
Proof.
  revert t. refine (ty_rect'' (fun t => r_mis t = false -> steady big t) _ _ _ _ _ _).
  - intros b _ v pos k. cbn [dvar_align]. pose proof (padding_own pos k (basic_dvar_align b)) as P.
    destruct b, v; try reflexivity; cbn [marshal basic_dvar_align] in *; rewrite ?P; reflexivity.
  - discriminate.
  - intros t IH M v pos k. cbn [r_mis] in M. apply orb_false_elim in M. destruct M as [A M]. apply N.ltb_ge in A.
    rewrite (proj2 (N.ltb_lt _ 3)), andb_true_r in M by lia. specialize (IH M).
    destruct v; try reflexivity. rewrite !marshal_array. cbv zeta. cbn [dvar_align]. rewrite padding_own.
    set (s := pos + size (padding pos 2) + 4). replace (pos + k * 2 ^ 2 + size (padding pos 2) + 4) with (s + k * 2 ^ 2) by (unfold s; lia).
    destruct (four _ A) as [c C]. replace (k * 2 ^ 2) with (k * c * 2 ^ dvar_align t) by (change (2 ^ 2) with 4; rewrite C; lia).
    rewrite padding_own. replace (s + k * c * 2 ^ dvar_align t + size (padding s (dvar_align t))) with (s + size (padding s (dvar_align t)) + k * c * 2 ^ dvar_align t) by lia.
    rewrite (steady_all big t IH). reflexivity.
  - intros t _ _ v pos k. destruct v; reflexivity.
  - intros ts _ _ v pos k. cbn [dvar_align]. change (2 ^ 3) with 8. rewrite N.mul_comm. apply shifting.
  - intros kb t _ _ v pos k. cbn [dvar_align]. change (2 ^ 3) with 8. rewrite N.mul_comm. apply shifting.
Qed.

(** * What is marked *)
Definition wavers big t := exists v b b', marshal big t v 0 = Some b /\ marshal big t v 4 = Some b' /\ b <> b' /\
  size b <= 4 * len t + 12 /\ size b' <= 4 * len t + 12.
Theorem marked big t : r_mis t = true -> r_uns t = false -> dvar_align t < 3 -> len t < 2 ^ 29 -> wavers big t.
Proof.
  revert t. refine (ty_rect'' (fun t => r_mis t = true -> r_uns t = false -> dvar_align t < 3 -> len t < 2 ^ 29 -> wavers big t) _ _ _ _ _ _).
  - discriminate.
  - intros _ _ _ _. exists (VVariant (TBasic BUint64) (VU64 0)). destruct big.
    + eexists. eexists. split; [vm_compute; reflexivity|]. split; [vm_compute; reflexivity|]. split; [discriminate|]. split; vm_compute; discriminate.
    + eexists. eexists. split; [vm_compute; reflexivity|]. split; [vm_compute; reflexivity|]. split; [discriminate|]. split; vm_compute; discriminate.
  - intros t IH M U _ L. cbn [r_mis] in M. cbn [r_uns] in U. rewrite len_array in *. destruct (N.ltb_spec 2 (dvar_align t)) as [A|A].
    + assert (A' : dvar_align t = 3) by (pose proof (align_up_to t); lia). exists (VArray []).
      rewrite !marshal_array. cbv zeta. rewrite A'. cbn [length repeat marshal_all].
      eexists. eexists. split; [destruct big; vm_compute; reflexivity|]. split; [destruct big; vm_compute; reflexivity|].
      split; [destruct big; discriminate|]. pose proof (len_pos t). rewrite !len_array.
      assert (H8 : forall l : list N, size l <= 8 -> size l <= 4 * (1 + len t) + 12) by (intros l; lia).
      split; apply H8; destruct big; vm_compute; discriminate.
    + cbn [orb] in M. apply andb_prop in M. destruct M as [M _].
      destruct (IH M U ltac:(lia) ltac:(lia)) as (v & b & b' & E & E' & D & S & S'). exists (VArray [v]).
      rewrite !marshal_array. cbv zeta. cbn [length repeat marshal_all].
      assert (G4 : padding 4 (dvar_align t) = []) by (destruct (four _ A) as [c ->]; apply padding_multiple).
      assert (G8 : padding 8 (dvar_align t) = []) by (destruct (eight _ (align_up_to t)) as [c C]; rewrite C; apply padding_multiple).
      change (0 + size (padding 0 2) + 4) with 4. change (4 + size (padding 4 2) + 4) with 8. rewrite G4, G8.
      change (4 + size (@nil N)) with 4. change (8 + size (@nil N)) with (0 + 8 * 1). rewrite (shifting big v t 0 1), E, E', !app_nil_r.
      change (padding 0 2) with (@nil N). change (padding 4 2) with (@nil N). cbn [app].
      rewrite (proj2 (N.ltb_lt (size b) _)), (proj2 (N.ltb_lt (size b') _)) by (change (2 ^ 32) with (2 ^ 29 * 8); lia).
      eexists. eexists. split; [reflexivity|]. split; [reflexivity|]. split.
      * intros Q. apply app_cut in Q; [|rewrite !int_length; reflexivity]. destruct Q as [_ Q]. congruence.
      * rewrite !size_app, !size_int, !len_array. lia.
  - intros t _ _ U. discriminate U.
  - intros ts _ _ _ A. cbn in A. lia.
  - intros kb t _ _ _ A. cbn in A. lia.
Qed.

(** * The flag *)
Lemma mis_flag fuel T sg fs u : sig_new fuel (print T) = Ok (inr sg) -> occurs T fs u -> exists f,
  node_flags sg (index fs) = Ok (Some f) /\ f_dvar_unsupported f = r_uns u /\
  f_dvar_misaligned f = r_mis u && (match fs with [] => true | _ => dvar_align u <? 3 end).
Proof.
  intros H O. pose proof (sig_new_bound _ _ _ H) as B. rewrite (sig_new_ok fuel (print T) B) in H.
  pose proof (srun_sound (size (print T)) (print T) [] eq_refl) as S. cbn [prefix app] in S.
  destruct (srun (size (print T)) [] (print T)) as [e|t]; [discriminate|]. injection H as <-. apply print_inj in S. subst t.
  set (k := kind_for (print T)). assert (Hk : k = node8 \/ k = node64) by (unfold k, kind_for; destruct (size (print T) <=? 31); auto).
  destruct (occ_nodes k T fs u (root (node_id k) T 0 0) O) as (X & r' & Y & E & L & F).
  exists (n_flags r'). unfold node_flags, flags_at, mapr. cbn [c_sig]. unfold index.
  assert (N : node_at (mkSig k (map Some (root (node_id k) T 0 0 :: body (node_id k) T))) (size (prefix fs)) = Ok (Some r')).
  { rewrite (node_at_ok k Hk T _ (ex_intro _ 0 (ex_intro _ 0 (or_introl eq_refl)))). f_equal. rewrite E. apply nth_mid. symmetry. exact L. }
  split.
  - match goal with |- context [node_at ?s _] => change s with (mkSig k (map Some (root (node_id k) T 0 0 :: body (node_id k) T))) end. rewrite N. reflexivity.
  - destruct fs as [|f fs].
    + destruct F as (-> & -> & _). cbn. rewrite andb_true_r. auto.
    + rewrite F. unfold DbusSigAnnot.cont. cbv zeta. destruct (N.leb_spec 3 (dvar_align u)) as [A|A].
      * rewrite (proj2 (N.ltb_ge _ _)) by exact A. rewrite andb_false_r. cbn. auto.
      * rewrite (proj2 (N.ltb_lt _ _)) by exact A. rewrite andb_true_r. cbn. auto.
Qed.
