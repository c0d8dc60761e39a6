(** Property C110: signatures are a prefix code, and so is what is hashed. *)
From Coq Require Import Ascii String.
From Verif Require Import Base DbusSigModel DbusSpec DbusSigSpec DbusObs.
From Verif Require DbusSigTheory DbusSigResults.
Local Open Scope N_scope.

(** No signature begins with another one. *)
Theorem sig_prefix_code : forall fuel a b more A B,
  sig_new fuel a = Ok (inr A) -> sig_new fuel b = Ok (inr B) -> b = a ++ more -> more = [] /\ a = b.
Proof.
  intros fuel a b more A B EA EB E. destruct (DbusSigResults.sig_new_sig _ _ _ EA) as [t [-> _]].
  destruct (DbusSigResults.sig_new_sig _ _ _ EB) as [u [-> _]].
  destruct (DbusSigTheory.print_prefix_free _ _ _ E) as [-> ->]. split; reflexivity.
Qed.
Print Assumptions sig_prefix_code.

(** Signatures written one after the other can be told apart. *)
Theorem sig_sequence_unique : forall fuel l l',
  Forall (fun s => exists sg, sig_new fuel s = Ok (inr sg)) l ->
  Forall (fun s => exists sg, sig_new fuel s = Ok (inr sg)) l' ->
  concat l = concat l' -> l = l'.
Proof.
  assert (NE : forall fuel sg, sig_new fuel [] <> Ok (inr sg)).
  { intros fuel sg E. destruct (DbusSigResults.sig_new_sig _ _ _ E) as [t [P _]]. destruct t; discriminate. }
  intros fuel. induction l as [|s l IH]; intros l' F F' E.
  - destruct l' as [|s' l']; [reflexivity|]. inversion F' as [|? ? [sg H] _]; subst. cbn in E. destruct s' as [|c s']; [|discriminate].
    exfalso. exact (NE _ _ H).
  - inversion F as [|? ? [sg H] Fl]; subst. destruct l' as [|s' l'].
    { cbn in E. destruct s as [|c s]; [|discriminate]. exfalso. exact (NE _ _ H). }
    inversion F' as [|? ? [sg' H'] Fl']; subst. cbn [concat] in E.
    assert (K : s = s').
    { assert (X : (exists r, s = s' ++ r) \/ (exists r, s' = s ++ r)).
      { clear - E. revert s' E. induction s as [|c s IH]; intros [|d s'] E; [left; exists []; reflexivity|right; exists (d :: s'); reflexivity|left; exists (c :: s); reflexivity|].
        cbn in E. injection E as -> E. destruct (IH s' E) as [[r ->]|[r ->]]; [left|right]; exists r; reflexivity. }
      destruct X as [[r X]|[r X]].
      - destruct (sig_prefix_code fuel s' s r sg' sg H' H X) as [_ ->]. reflexivity.
      - destruct (sig_prefix_code fuel s s' r sg sg' H H' X) as [_ ->]. reflexivity. }
    subst s'. apply app_inv_head in E. f_equal. apply IH; assumption.
Qed.
Print Assumptions sig_sequence_unique.

(** What is given to a hasher for several signatures in sequence tells them
    all: it is the same only for the same signatures. *)
Theorem sig_hash_sequence : forall fuel l l' sgs sgs' hs hs',
  Forall2 (fun s sg => sig_new fuel s = Ok (inr sg)) l sgs -> Forall2 (fun s sg => sig_new fuel s = Ok (inr sg)) l' sgs' ->
  Forall2 (fun sg h => sig_hash sg = Ok h) sgs hs -> Forall2 (fun sg h => sig_hash sg = Ok h) sgs' hs' ->
  concat hs = concat hs' <-> l = l'.
Proof.
  assert (K : forall fuel l sgs hs, Forall2 (fun s sg => sig_new fuel s = Ok (inr sg)) l sgs -> Forall2 (fun sg h => sig_hash sg = Ok h) sgs hs ->
    exists els, Forall2 (fun h e => h = map e_id e) hs els /\ Forall2 (fun s e => s = map e_code e) l els).
  { intros fuel l sgs hs F. revert hs. induction F as [|s sg l sgs H F IH]; intros hs G; inversion G as [|? h ? hs0 Hh G0]; subst.
    - exists []. split; constructor.
    - destruct (IH _ G0) as (els & E1 & E2). destruct (DbusSigResults.sig_new_sig _ _ _ H) as [t [-> [I _]]].
      destruct (DbusSigResults.is_sig_elements t sg I) as [e [El Ec]]. unfold sig_hash in Hh. rewrite El in Hh. cbn in Hh. injection Hh as <-.
      exists (e :: els). split; constructor; [reflexivity|exact E1|symmetry; exact Ec|exact E2]. }
  assert (M : forall (els : list (list Element)) hs (f : Element -> N), Forall2 (fun h e => h = map f e) hs els -> concat hs = map f (concat els)).
  { intros els hs f F. induction F as [|h e hs els H F IH]; [reflexivity|]. cbn. rewrite IH, H, map_app. reflexivity. }
  intros fuel l l' sgs sgs' hs hs' F F' G G'.
  destruct (K _ _ _ _ F G) as (els & E1 & E2). destruct (K _ _ _ _ F' G') as (els' & E1' & E2').
  rewrite (M _ _ _ E1), (M _ _ _ E1'), DbusSigResults.ids_codes, <- (M _ _ _ E2), <- (M _ _ _ E2'). split; [|intros ->; reflexivity].
  apply (sig_sequence_unique fuel).
  - clear - F. induction F; constructor; eauto.
  - clear - F'. induction F'; constructor; eauto.
Qed.
Print Assumptions sig_hash_sequence.

Example sig_sequence_example :
  Forall (fun s => exists sg, sig_new 0 s = Ok (inr sg)) [bytes "a{sv}"; bytes "(ii)"; bytes "s"] /\
  concat [bytes "a{sv}"; bytes "(ii)"; bytes "s"] = bytes "a{sv}(ii)s".
Proof. split; [repeat (constructor; [eexists; vm_compute; reflexivity|]); constructor|reflexivity]. Qed.
(** What a hasher is given for two signatures in sequence. *)
Example sig_hash_sequence_example : exists A B h k,
  Forall2 (fun s sg => sig_new 0 s = Ok (inr sg)) [bytes "a{sv}"; bytes "s"] [A; B] /\
  Forall2 (fun sg h => sig_hash sg = Ok h) [A; B] [h; k] /\ h <> k.
Proof.
  do 4 eexists. split; [constructor; [vm_compute; reflexivity|constructor; [vm_compute; reflexivity|constructor]]|].
  split; [constructor; [vm_compute; reflexivity|constructor; [vm_compute; reflexivity|constructor]]|discriminate].
Qed.
