(** Concrete signatures on which the code departs from its documentation. *)
From Coq Require Import Ascii String.
From Verif Require Import Base DbusSigModel DbusSpec DbusSigAnnot DbusSigProofs DbusSigRefine DbusSigSpec DbusSigTheory DbusObs DbusCursorProofs DbusCursorQueries DbusSigResults.
Local Open Scope N_scope.
Local Open Scope res_scope.


Lemma mispaired_example : exists s i j x,
  sig_new 0 s = Ok (inl (ElementMispaired i j x)) /\ ~ rejected opener s (ElementMispaired i j x).
Proof.
  exists (bytes "(}"), 1, 1, (Some EDictOpen). split; [vm_compute; reflexivity|].
  intros H. remember (ElementMispaired 1 1 (Some EDictOpen)) as er eqn:Ee.
  destruct H as [| | | | | |f fs c e rest E He Hc| ]; try discriminate Ee. injection Ee as Ei Ej _.
  unfold opener in Ei. apply (f_equal size) in E. rewrite size_app, size_cons in E. change (size (bytes "(}")) with 2 in E.
  assert (Ep : size (prefix fs) = size (prefix (f :: fs))) by (transitivity 1; [exact Ei|symmetry; exact Ej]).
  pose proof (prefix_cons f fs). lia.
Qed.

Fixpoint arrays (n : nat) : ty := match n with O => TBasic BByte | S n => TArray (arrays n) end.
Lemma arrays_len n : len (arrays n) = N.of_nat n + 1.
Proof. induction n as [|n IH]; [reflexivity|]. cbn [arrays]. rewrite len_array, IH. lia. Qed.
Definition long : ty := arrays 32.

Lemma len_example : exists s sg, sig_new 0 s = Ok (inr sg) /\ sig_len sg <> Ok (size s).
Proof.
  destruct (sig_new_print 0 long) as [sg [E _]]; [unfold long; rewrite arrays_len; lia|].
  exists (print long), sg. split; [exact E|]. rewrite (len_partial _ _ _ E). vm_compute. discriminate.
Qed.
Lemma next_example : exists s sg, sig_new 0 s = Ok (inr sg) /\
  exists c, do_moves (mkCursor sg 0) (repeat Next (N.to_nat (size s + 1))) = Ok c /\ size s < c_idx c.
Proof.
  destruct (sig_new 0 (print long)) as [[e|sg]| |] eqn:E; [vm_compute in E; discriminate| |vm_compute in E; discriminate..].
  exists (print long), sg. split; [exact E|]. vm_compute in E. injection E as <-.
  eexists. split; [vm_compute; reflexivity|]. vm_compute. reflexivity.
Qed.
Lemma sub_len_example : exists t sg fs u sub own,
  sig_new 0 (print t) = Ok (inr sg) /\ occurs t fs u /\ c_sub (mkCursor sg (index fs)) = Ok (Some sub) /\
  sig_new 0 (print u) = Ok (inr own) /\ sig_len sub <> sig_len own.
Proof.
  destruct (sig_new 0 (print long)) as [[e|sg]| |] eqn:E; [vm_compute in E; discriminate| |vm_compute in E; discriminate..].
  destruct (sig_new 0 (print (arrays 31))) as [[e|own]| |] eqn:E1; [vm_compute in E1; discriminate| |vm_compute in E1; discriminate..].
  destruct (sig_new 0 (print (arrays 30))) as [[e|own']| |] eqn:E2; [vm_compute in E2; discriminate| |vm_compute in E2; discriminate..].
  destruct (c_sub (mkCursor sg 2)) as [[sub|]| |] eqn:E3.
  2-4: vm_compute in E; injection E as <-; vm_compute in E3; discriminate.
  exists long, sg, [FArray; FArray], (arrays 30), sub, own'. split; [exact E|].
  split; [apply occ_array, occ_array, occ_root|]. split; [exact E3|]. split; [exact E2|].
  vm_compute in E, E2. injection E as <-. injection E2 as <-. vm_compute in E3. injection E3 as <-.
  vm_compute. discriminate.
Qed.
Lemma variant_example : exists t sg f,
  sig_new 0 (print t) = Ok (inr sg) /\ node_flags sg 0 = Ok (Some f) /\
  contains t (fun u => u = TVariant) /\ f_variant f = false.
Proof.
  exists (TArray TVariant). eexists. eexists. split; [vm_compute; reflexivity|]. split; [vm_compute; reflexivity|].
  split; [exists [FArray], TVariant; split; [apply occ_array, occ_root|reflexivity]|vm_compute; reflexivity].
Qed.
Lemma empty_struct_example : exists sg f g,
  sig_new 0 (print (TStruct [])) = Ok (inr sg) /\ node_flags sg 0 = Ok (Some f) /\
  f_dvar_unsupported f = false /\ node_flags sg 1 = Ok (Some g) /\ f_dvar_unsupported g = true.
Proof. do 3 eexists. repeat (split; [vm_compute; reflexivity|]). vm_compute. reflexivity. Qed.
Lemma gvar_size_example : exists t sg n,
  sig_new 0 (print t) = Ok (inr sg) /\ node_at sg 0 = Ok (Some n) /\ dynamic t = false /\ n_gvar_size n <> gvar_size t.
Proof.
  exists (TStruct [TBasic BUint32; TBasic BByte]). do 2 eexists. split; [vm_compute; reflexivity|].
  split; [vm_compute; reflexivity|]. split; [reflexivity|]. vm_compute. discriminate.
Qed.

Lemma pad_example : exists s data, (exists t, s = print t) /\
  (exists need, size_for_length (size s) = Ok need /\ need <= data) /\
  forall fuel, sig_parse fuel data s = NoFuel.
Proof.
  exists (print long), (33 * 6 + 1). split; [exists long; reflexivity|].
  split; [exists (33 * 6); split; [vm_compute; reflexivity|lia]|].
  intros fuel. apply sig_parse_large with long; [vm_compute; reflexivity|reflexivity|vm_compute; discriminate|vm_compute; discriminate].
Qed.
Lemma small_example : exists s data, (exists t, s = print t) /\ forall fuel, sig_parse fuel data s = Panic.
Proof. exists (bytes "ay"), 1. split; [exists (TArray (TBasic BByte)); reflexivity|]. intros fuel. vm_compute. reflexivity. Qed.
Lemma huge_example fuel s : 2 ^ 61 <= size s -> sig_new fuel s = Panic.
Proof.
  intros H. unfold sig_new, size_for_length. fold (size s). change (length_max node8) with 31.
  change (length_max node64) with (2 ^ 61 - 1).
  rewrite (proj2 (N.leb_gt _ _)) by (apply N.lt_le_trans with (2 ^ 61); [reflexivity|exact H]).
  rewrite (proj2 (N.leb_gt _ _)) by lia. reflexivity.
Qed.
