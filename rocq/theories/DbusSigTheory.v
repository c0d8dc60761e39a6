(** From the stack machine to the grammar: what is accepted, and every error. *)
From Coq Require Import Ascii.
From Verif Require Import Base DbusSigModel DbusSpec DbusSigAnnot DbusSigProofs DbusSigRefine DbusSigSpec.
Local Open Scope N_scope.
Local Open Scope res_scope.

(** ** The element table. *)
Lemma from_code_code c e : from_code c = Some e -> c = e_code e.
Proof.
  unfold from_code. intros H. destruct c as [|p]; [discriminate|].
  repeat (match goal with p : positive |- _ => destruct p as [p|p|] end; try discriminate H);
    injection H as <-; reflexivity.
Qed.
Lemma code_from_code e : from_code (e_code e) = Some e.
Proof. destruct e; reflexivity. Qed.
Lemma from_code_codes c : from_code c <> None <-> In c codes.
Proof.
  split.
  - intros H. destruct (from_code c) as [e|] eqn:E; [|congruence].
    apply from_code_code in E. subst c. destruct e; cbn; tauto.
  - intros H. cbn in H. repeat destruct H as [<-|H]; try discriminate. contradiction.
Qed.
Lemma code_ascii e : e_code e < 128.
Proof. destruct e; reflexivity. Qed.

(** ** Stepping the machine. *)
Lemma complete_text fs : forall t,
  match complete fs t with
  | inl t' => print t' = prefix fs ++ print t
  | inr fs' => prefix fs' = prefix fs ++ print t /\ fs' <> []
  end.
Proof.
  induction fs as [|f fs IH]; intros t; [reflexivity|].
  destruct f as [| |ms|ms]; cbn [complete].
  - specialize (IH (TArray t)). cbn [prefix members flat_map print opening] in *.
    rewrite <- app_assoc. exact IH.
  - specialize (IH (TMaybe t)). cbn [prefix members flat_map print opening] in *.
    rewrite <- app_assoc. exact IH.
  - split; [|discriminate]. cbn [prefix members opening]. rewrite flat_map_app. cbn [flat_map].
    rewrite app_nil_r, <- app_assoc. reflexivity.
  - split; [|discriminate]. cbn [prefix members opening]. rewrite flat_map_app. cbn [flat_map].
    rewrite app_nil_r, <- app_assoc. reflexivity.
Qed.

Inductive token := KOpen (f : frame) | KSimple (t : ty) | KClose (struct : bool).
Definition tok (e : Element) : token :=
  match e with
  | EArray => KOpen FArray | EMaybe => KOpen FMaybe
  | EStructOpen => KOpen (FStruct []) | EDictOpen => KOpen (FDict [])
  | EStructClose => KClose true | EDictClose => KClose false
  | EVariant => KSimple TVariant
  | EU8 => KSimple (TBasic BByte) | EU16 => KSimple (TBasic BUint16) | EI16 => KSimple (TBasic BInt16)
  | EU32 => KSimple (TBasic BUint32) | EI32 => KSimple (TBasic BInt32)
  | EU64 => KSimple (TBasic BUint64) | EI64 => KSimple (TBasic BInt64)
  | EF64 => KSimple (TBasic BDouble) | EBool => KSimple (TBasic BBoolean)
  | EString => KSimple (TBasic BString) | EObject => KSimple (TBasic BObjectPath)
  | ESignature => KSimple (TBasic BSignature) | EHandle => KSimple (TBasic BHandle)
  end.
Lemma tok_code e : match tok e with
                   | KOpen f => members f = [] /\ e_code e = opening f
                   | KSimple t => print t = [e_code e]
                   | KClose true => e_code e = chr ")"
                   | KClose false => e_code e = chr "}"
                   end.
Proof. destruct e; cbn; try split; reflexivity. Qed.

Definition sclose (n : N) (fs : list frame) (struct : bool) : sres :=
  let idx := size (prefix fs) in
  match fs with
  | [] => SFail (ElementUnpaired idx)
  | FStruct ms :: fs' =>
    if struct then scomplete n (idx + 1) fs' (TStruct ms)
    else SFail (ElementMispaired (mispaired_idx (FStruct ms) fs') idx (Some EDictOpen))
  | FDict ms :: fs' =>
    if struct then SFail (ElementMispaired (mispaired_idx (FDict ms) fs') idx (Some EStructOpen))
    else match ms with
         | [TBasic b; v] => scomplete n (idx + 1) fs' (TDict b v)
         | _ => SFail (DictInvalid (size (prefix fs')))
         end
  | f :: fs' => SFail (ElementMispaired (mispaired_idx f fs') idx
                         (Some (if struct then EStructOpen else EDictOpen)))
  end.
Lemma sstep_tok n fs e :
  sstep n fs (e_code e) =
  match tok e with
  | KOpen f => SGo (f :: fs)
  | KSimple t => scomplete n (size (prefix fs) + 1) fs t
  | KClose b => sclose n fs b
  end.
Proof.
  unfold sstep. rewrite (proj2 (N.ltb_lt _ _) (code_ascii e)), code_from_code. cbn [negb].
  destruct e; try reflexivity; cbn [tok sclose];
    destruct fs as [|[| |ms|ms] fs]; try reflexivity;
    destruct ms as [|m [|v [|? ?]]]; try reflexivity; destruct m; reflexivity.
Qed.
Lemma sstep_bad n fs c :
  (forall e, c <> e_code e) ->
  sstep n fs c = SFail (if c <? 128 then ElementUnknown (size (prefix fs)) c
                        else ElementInvalid (size (prefix fs)) c).
Proof.
  intros H. unfold sstep. destruct (c <? 128); cbn [negb]; [|reflexivity].
  destruct (from_code c) as [e|] eqn:E; [|reflexivity].
  apply from_code_code in E. exfalso. apply (H e E).
Qed.
Lemma code_dec c : (exists e, c = e_code e) \/ (forall e, c <> e_code e).
Proof.
  destruct (from_code c) as [e|] eqn:E.
  - left. exists e. apply from_code_code, E.
  - right. intros e ->. rewrite code_from_code in E. discriminate.
Qed.

Lemma scomplete_text n idx fs t :
  idx = size (prefix fs ++ print t) ->
  match scomplete n idx fs t with
  | SGo fs' => prefix fs' = prefix fs ++ print t /\ fs' <> []
  | SDone t' => print t' = prefix fs ++ print t /\ size (print t') = n
  | SFail e => exists t', print t' = prefix fs ++ print t /\ idx <> n /\ e = SignatureSequence idx
  end.
Proof.
  intros Hi. pose proof (complete_text fs t) as C. unfold scomplete.
  destruct (complete fs t) as [t'|fs']; [|exact C].
  destruct (N.eqb_spec idx n) as [E|E].
  - split; [exact C|]. rewrite C, <- Hi. exact E.
  - exists t'. repeat split; assumption.
Qed.

Lemma mispaired_reported f fs : mispaired_idx f fs = reported f fs.
Proof.
  unfold mispaired_idx, reported, foff. destruct fs as [|g fs]; [reflexivity|].
  f_equal. rewrite prefix_cons. lia.
Qed.

(** One step: the text consumed, or the error it deserves. *)
Lemma sstep_text n fs c rest :
  let s := prefix fs ++ c :: rest in
  n = size s ->
  match sstep n fs c with
  | SGo fs' => prefix fs' = prefix fs ++ [c] /\ fs' <> []
  | SDone t => print t = s
  | SFail e => rejected reported s e
  end.
Proof.
  intros s Hn. destruct (code_dec c) as [[e ->]|Hbad].
  - rewrite sstep_tok. pose proof (tok_code e) as T. destruct (tok e) as [f|t|b].
    + destruct T as [T1 T2]. split; [|discriminate]. cbn [prefix]. rewrite T1, T2. reflexivity.
    + pose proof (scomplete_text n (size (prefix fs) + 1) fs t) as C.
      rewrite T in C. specialize (C ltac:(rewrite size_app; reflexivity)).
      destruct (scomplete n (size (prefix fs) + 1) fs t) as [fs'|t'|er].
      * exact C.
      * destruct C as [C1 C2]. rewrite C1. unfold s. f_equal.
        assert (Hr : rest = []).
        { rewrite C1 in C2. rewrite <- C2 in Hn. unfold s in Hn. rewrite !size_app, !size_cons, size_nil in Hn.
          destruct rest; [reflexivity|]. rewrite size_cons in Hn. lia. }
        rewrite Hr. reflexivity.
      * destruct C as [t' [C1 [C2 ->]]].
        replace (size (prefix fs) + 1) with (size (print t'))
          by (rewrite C1, size_app, size_cons, size_nil; lia).
        apply rej_sequence with rest.
        -- rewrite C1, <- app_assoc. reflexivity.
        -- intros ->. apply C2. rewrite Hn. unfold s. rewrite size_app, size_cons, size_nil. lia.
    + assert (Hfin : forall f fs' T, fs = f :: fs' ->
        prefix fs' ++ print T = prefix fs ++ [e_code e] ->
        match scomplete n (size (prefix fs) + 1) fs' T with
        | SGo fs' => prefix fs' = prefix fs ++ [e_code e] /\ fs' <> []
        | SDone t => print t = s
        | SFail e => rejected reported s e
        end).
      { intros f fs' T' Hfs HT.
        pose proof (scomplete_text n (size (prefix fs) + 1) fs' T') as C.
        rewrite HT in C. specialize (C ltac:(rewrite size_app; reflexivity)).
        destruct (scomplete n (size (prefix fs) + 1) fs' T') as [fs''|t'|er].
        - exact C.
        - destruct C as [C1 C2]. rewrite C1. unfold s. f_equal.
          assert (Hr : rest = []).
          { rewrite C1 in C2. rewrite <- C2 in Hn. unfold s in Hn. rewrite !size_app, !size_cons, size_nil in Hn.
            destruct rest; [reflexivity|]. rewrite size_cons in Hn. lia. }
          rewrite Hr. reflexivity.
        - destruct C as [t' [C1 [C2 ->]]].
          replace (size (prefix fs) + 1) with (size (print t'))
            by (rewrite C1, size_app, size_cons, size_nil; lia).
          apply rej_sequence with rest.
          + rewrite C1, <- app_assoc. reflexivity.
          + intros ->. apply C2. rewrite Hn. unfold s. rewrite size_app, size_cons, size_nil. lia. }
      assert (Hmis : forall f fs', fs = f :: fs' -> ~ closes (e_code e) f ->
        rejected reported s (ElementMispaired (mispaired_idx f fs') (size (prefix fs))
           (Some (if b then EStructOpen else EDictOpen)))).
      { intros f fs' Hfs Hc. rewrite mispaired_reported. subst fs. 
        apply rej_mispaired with (e_code e) rest; [reflexivity| |exact Hc].
        destruct b; [left|right]; split; try reflexivity; exact T. }
      destruct fs as [|f fs']; [|destruct f as [| |ms|ms]].
      * cbn [sclose]. apply rej_unpaired with (e_code e) rest; [reflexivity|].
        unfold is_closing. destruct b; [left|right]; exact T.
      * cbn [sclose]. apply Hmis; [reflexivity|]. intros [].
      * cbn [sclose]. apply Hmis; [reflexivity|]. intros [].
      * cbn [sclose]. destruct b.
        -- eapply Hfin; [reflexivity|]. cbn [prefix print members opening]. rewrite T, <- app_assoc. reflexivity.
        -- apply Hmis; [reflexivity|]. cbn [closes]. rewrite T. discriminate.
      * cbn [sclose]. destruct b.
        -- apply Hmis; [reflexivity|]. cbn [closes]. rewrite T. discriminate.
        -- assert (Hb : (exists k v, ms = [TBasic k; v]) \/
             (~ (exists k v, ms = [TBasic k; v]) /\
              match ms with [TBasic b; v] => scomplete n (size (prefix (FDict ms :: fs')) + 1) fs' (TDict b v)
              | _ => SFail (DictInvalid (size (prefix fs'))) end = SFail (DictInvalid (size (prefix fs'))))).
           { destruct ms as [|m [|v [|w ms]]];
               try (right; split; [intros [? [? Q]]; discriminate|]; reflexivity);
               destruct m as [bb| | | | |];
               try (right; split; [intros [? [? Q]]; discriminate|]; reflexivity).
             left. exists bb, v. reflexivity. }
           destruct Hb as [[bb [v Hms]]|[Hb1 Hb2]].
           ++ subst ms. eapply Hfin; [reflexivity|]. cbn [prefix print members opening flat_map].
              rewrite T, app_nil_r, <- app_assoc. reflexivity.
           ++ rewrite Hb2. apply rej_dict with ms rest; [|exact Hb1]. unfold s. rewrite T. reflexivity.
  - rewrite (sstep_bad n fs c Hbad).
    assert (Hnc : ~ In c codes).
    { intros Hin. apply from_code_codes in Hin. destruct (from_code c) as [e|] eqn:E; [|congruence].
      apply (Hbad e), from_code_code, E. }
    destruct (N.ltb_spec c 128) as [L|L].
    + apply rej_unknown with rest; [reflexivity|exact L|exact Hnc].
    + apply rej_invalid with rest; [reflexivity|exact L].
Qed.

(** ** Running the machine: soundness. *)
Lemma srun_sound n rest : forall fs,
  n = size (prefix fs ++ rest) ->
  match srun n fs rest with
  | inl e => rejected reported (prefix fs ++ rest) e
  | inr t => prefix fs ++ rest = print t
  end.
Proof.
  induction rest as [|c rest IH]; intros fs Hn; cbn [srun].
  - rewrite app_nil_r in *. destruct fs as [|f fs].
    + apply rej_empty. reflexivity.
    + apply rej_incomplete with f. reflexivity.
  - pose proof (sstep_text n fs c rest Hn) as S.
    destruct (sstep n fs c) as [fs'|t|e].
    + destruct S as [S _]. specialize (IH fs'). rewrite S, <- app_assoc in IH. exact (IH Hn).
    + symmetry. exact S.
    + exact S.
Qed.

(** ** Running the machine: completeness. *)
Definition after (n idx : N) (fs : list frame) (t : ty) (rest : list N) : Error + ty :=
  match scomplete n idx fs t with
  | SGo fs => srun n fs rest
  | SDone t => inr t
  | SFail e => inl e
  end.

Lemma srun_chars n fs ms : forall pre rest,
  Forall (fun t => forall fs rest, srun n fs (print t ++ rest) = after n (size (prefix fs ++ print t)) fs t rest) ms ->
  srun n (FStruct pre :: fs) (flat_map print ms ++ rest) = srun n (FStruct (pre ++ ms) :: fs) rest /\
  srun n (FDict pre :: fs) (flat_map print ms ++ rest) = srun n (FDict (pre ++ ms) :: fs) rest.
Proof.
  induction ms as [|m ms IH]; intros pre rest HF.
  - cbn [flat_map app]. rewrite app_nil_r. split; reflexivity.
  - inversion HF as [|x l Hm HF']; subst. cbn [flat_map]. rewrite <- app_assoc.
    rewrite !Hm. unfold after, scomplete. cbn [complete].
    destruct (IH (pre ++ [m]) rest HF') as [I1 I2]. rewrite <- app_assoc in I1, I2.
    split; [exact I1|exact I2].
Qed.

Lemma code_step n fs c rest : 
  srun n fs (c :: rest) = match sstep n fs c with SGo fs => srun n fs rest | SDone t => inr t | SFail e => inl e end.
Proof. reflexivity. Qed.

Lemma srun_print n t : forall fs rest,
  srun n fs (print t ++ rest) = after n (size (prefix fs ++ print t)) fs t rest.
Proof.
  induction t as [b| |t IH|t IH|ms IH|kb v IH] using ty_rect'; intros fs rest; cbn [print app].
  - rewrite code_step. replace (sstep n fs (basic_chr b)) with (sstep n fs (e_code (basic_el b)))
      by (destruct b; reflexivity).
    rewrite sstep_tok. unfold after. rewrite size_app. destruct b; reflexivity.
  - rewrite code_step. change (chr "v") with (e_code EVariant). rewrite sstep_tok.
    unfold after. rewrite size_app. reflexivity.
  - rewrite code_step. change (chr "a") with (e_code EArray) at 1. rewrite sstep_tok. cbn [tok].
    rewrite IH. unfold after, scomplete. cbn [complete prefix members flat_map opening].
    rewrite <- app_assoc. reflexivity.
  - rewrite code_step. change (chr "m") with (e_code EMaybe) at 1. rewrite sstep_tok. cbn [tok].
    rewrite IH. unfold after, scomplete. cbn [complete prefix members flat_map opening].
    rewrite <- app_assoc. reflexivity.
  - rewrite code_step. change (chr "(") with (e_code EStructOpen) at 1. rewrite sstep_tok. cbn [tok].
    rewrite <- app_assoc. rewrite (proj1 (srun_chars n fs ms [] _ IH)). cbn [app].
    rewrite code_step. change (chr ")") with (e_code EStructClose) at 1. rewrite sstep_tok. cbn [tok sclose].
    unfold after. 
    replace (size (prefix (FStruct ms :: fs)) + 1) with (size (prefix fs ++ print (TStruct ms))); [reflexivity|].
    rewrite prefix_cons, size_app. fold (len (TStruct ms)). rewrite len_struct. cbn [members]. lia.
  - rewrite code_step. change (chr "{") with (e_code EDictOpen) at 1. rewrite sstep_tok. cbn [tok].
    rewrite <- app_assoc. rewrite app_comm_cons.
    assert (F : Forall (fun t => forall fs rest, srun n fs (print t ++ rest) =
                  after n (size (prefix fs ++ print t)) fs t rest) [TBasic kb; v]).
    { constructor; [|constructor; [exact IH|constructor]].
      intros fs' rest'. cbn [print app]. rewrite code_step.
      replace (sstep n fs' (basic_chr kb)) with (sstep n fs' (e_code (basic_el kb))) by (destruct kb; reflexivity).
      rewrite sstep_tok. unfold after. rewrite size_app. destruct kb; reflexivity. }
    pose proof (proj2 (srun_chars n fs [TBasic kb; v] [] ([chr "}"] ++ rest) F)) as R.
    cbn [flat_map] in R. rewrite app_nil_r in R. cbn [print app] in R.
    rewrite <- app_comm_cons. cbn [app]. rewrite R.
    rewrite code_step. change (chr "}") with (e_code EDictClose) at 1. rewrite sstep_tok. cbn [tok sclose].
    unfold after.
    replace (size (prefix (FDict [TBasic kb; v] :: fs)) + 1) with (size (prefix fs ++ print (TDict kb v))); [reflexivity|].
    rewrite prefix_cons, size_app. fold (len (TDict kb v)). rewrite len_dict. cbn [members lens].
    change (len (TBasic kb)) with 1. lia.
Qed.

Lemma srun_prefix n fs : forall rest, srun n [] (prefix fs ++ rest) = srun n fs rest.
Proof.
  induction fs as [|f fs IH]; intros rest; [reflexivity|].
  cbn [prefix]. rewrite <- app_assoc, IH. cbn [app]. rewrite code_step.
  assert (F : forall ms, Forall (fun t => forall fs rest, srun n fs (print t ++ rest) =
     after n (size (prefix fs ++ print t)) fs t rest) ms)
    by (intros ms; apply Forall_forall; intros; apply srun_print).
  destruct f as [| |ms|ms]; cbn [opening members flat_map app].
  - change (opening FArray) with (e_code EArray). rewrite sstep_tok. reflexivity.
  - change (opening FMaybe) with (e_code EMaybe). rewrite sstep_tok. reflexivity.
  - change (opening (FStruct ms)) with (e_code EStructOpen). rewrite sstep_tok. cbn [tok].
    exact (proj1 (srun_chars n fs ms [] rest (F ms))).
  - change (opening (FDict ms)) with (e_code EDictOpen). rewrite sstep_tok. cbn [tok].
    exact (proj2 (srun_chars n fs ms [] rest (F ms))).
Qed.

Lemma srun_accepts t : srun (size (print t)) [] (print t) = inr t.
Proof.
  rewrite <- (app_nil_r (print t)) at 2. rewrite srun_print. unfold after, scomplete. cbn [complete prefix app].
  rewrite N.eqb_refl. reflexivity.
Qed.

Lemma srun_rejects s e : rejected reported s e -> srun (size s) [] s = inl e.
Proof.
  intros H. destruct H as [H|t rest H Hr|f fs H|fs c rest H Hc|fs c rest H Hc Hn|c rest H Hc|f fs c e rest H He Hc|ms fs rest H Hb].
  - subst s. reflexivity.
  - subst s. rewrite srun_print. unfold after, scomplete. cbn [complete prefix app].
    rewrite (proj2 (N.eqb_neq _ _)); [reflexivity|].
    rewrite size_app. destruct rest; [congruence|]. rewrite size_cons. lia.
  - subst s. rewrite <- (app_nil_r (prefix (f :: fs))) at 2. rewrite srun_prefix. reflexivity.
  - subst s. rewrite srun_prefix, code_step, sstep_bad.
    + rewrite (proj2 (N.ltb_ge _ _) Hc). reflexivity.
    + intros e ->. pose proof (code_ascii e). lia.
  - subst s. rewrite srun_prefix, code_step, sstep_bad.
    + rewrite (proj2 (N.ltb_lt _ _) Hc). reflexivity.
    + intros e ->. apply Hn, from_code_codes. rewrite code_from_code. discriminate.
  - subst s. rewrite code_step. destruct Hc as [->| ->].
    + change (chr ")") with (e_code EStructClose). rewrite sstep_tok. reflexivity.
    + change (chr "}") with (e_code EDictClose). rewrite sstep_tok. reflexivity.
  - subst s. rewrite srun_prefix, code_step, <- mispaired_reported. destruct He as [[-> ->]|[-> ->]].
    + change (chr ")") with (e_code EStructClose). rewrite sstep_tok. cbn [tok sclose].
      destruct f; try reflexivity. exfalso. apply Hc. reflexivity.
    + change (chr "}") with (e_code EDictClose). rewrite sstep_tok. cbn [tok sclose].
      destruct f; try reflexivity. exfalso. apply Hc. reflexivity.
  - subst s. rewrite srun_prefix, code_step. change (chr "}") with (e_code EDictClose).
    rewrite sstep_tok. cbn [tok sclose].
    destruct ms as [|m [|v [|? ?]]]; try reflexivity; destruct m as [b| | | | |]; try reflexivity.
    exfalso. apply Hb. exists b, v. reflexivity.
Qed.

Lemma print_inj t u : print t = print u -> t = u.
Proof.
  intros H. pose proof (srun_accepts t) as A. pose proof (srun_accepts u) as B.
  rewrite H in A. rewrite A in B. injection B. trivial.
Qed.
(** No type's text is a proper prefix of another's. *)
Lemma print_prefix_free t u rest : print t = print u ++ rest -> t = u /\ rest = [].
Proof.
  intros H. destruct rest as [|c rest]; [rewrite app_nil_r in H; split; [apply print_inj, H|reflexivity]|].
  exfalso. pose proof (srun_accepts t) as A.
  pose proof (srun_rejects (print t) (SignatureSequence (size (print u)))
    (rej_sequence _ _ u (c :: rest) H ltac:(discriminate))) as B.
  rewrite A in B. discriminate.
Qed.

(** ** The parser. *)
Section K.
Context (k : kind).
Hypothesis wf_kind : length_max k <= field_max k.
Notation nid := (node_id k).

Lemma loop_ok n rest : forall fs tail,
  n = size (prefix fs ++ rest) -> n <= length_max k -> (rest <> [] \/ fs <> []) ->
  (length rest <= length tail)%nat ->
  parse_loop k n (size (prefix fs)) rest (st k fs tail) =
  match srun n fs rest with
  | inl e => Ok (inl e)
  | inr t => Ok (inr (buf (annot nid t) (skipn (length rest) tail)))
  end.
Proof.
  induction rest as [|c rest IH]; intros fs tail Hn Hl Hne Ht; cbn [parse_loop srun].
  - destruct fs as [|f fs]; [destruct Hne; congruence|]. reflexivity.
  - destruct tail as [|x tail]; [cbn in Ht; lia|]. cbn [length] in Ht.
    pose proof Hn as Hn'. rewrite size_app, size_cons in Hn'.
    pose proof (iteration_ok k wf_kind n c fs x tail ltac:(lia)) as I.
    pose proof (sstep_text n fs c rest Hn) as S.
    destruct (sstep n fs c) as [fs'|t|e] eqn:E; cbn [sim] in I; rewrite I; cbn [bind].
    + destruct S as [S Hfs]. 
      replace (size (prefix fs) + 1) with (size (prefix fs')) by (rewrite S, size_app; reflexivity).
      cbn [length skipn]. apply IH; [rewrite S, <- app_assoc; exact Hn|exact Hl|right; exact Hfs|lia].
    + assert (Hr : rest = []).
      { pose proof (scomplete_text) as _.
        assert (size (print t) = n) by (rewrite S; symmetry; exact Hn).
        clear - E S Hn. 
        assert (G : forall t', sstep n fs c = SDone t' -> print t' = prefix fs ++ [c]).
        { intros t' Hs. destruct (code_dec c) as [[e ->]|Hbad]; [|rewrite sstep_bad in Hs by exact Hbad; discriminate].
          rewrite sstep_tok in Hs. pose proof (tok_code e) as T. destruct (tok e) as [f|u|b]; [discriminate| |].
          - pose proof (scomplete_text n (size (prefix fs) + 1) fs u) as C. rewrite T in C.
            specialize (C ltac:(rewrite size_app; reflexivity)). rewrite Hs in C. apply C.
          - destruct fs as [|[| |ms|ms] fs]; cbn [sclose] in Hs; try discriminate.
            + destruct b; [|discriminate].
              pose proof (scomplete_text n (size (prefix (FStruct ms :: fs)) + 1) fs (TStruct ms)) as C.
              assert (HT : prefix fs ++ print (TStruct ms) = prefix (FStruct ms :: fs) ++ [e_code e]).
              { cbn [prefix print members opening]. rewrite T, <- app_assoc. reflexivity. }
              rewrite HT in C. specialize (C ltac:(rewrite size_app; reflexivity)). rewrite Hs in C. apply C.
            + destruct b; [discriminate|].
              destruct ms as [|m [|v [|? ?]]]; try discriminate; destruct m as [bb| | | | |]; try discriminate.
              pose proof (scomplete_text n (size (prefix (FDict [TBasic bb; v] :: fs)) + 1) fs (TDict bb v)) as C.
              assert (HT : prefix fs ++ print (TDict bb v) = prefix (FDict [TBasic bb; v] :: fs) ++ [e_code e]).
              { cbn [prefix print members opening flat_map]. rewrite T, app_nil_r, <- app_assoc. reflexivity. }
              rewrite HT in C. specialize (C ltac:(rewrite size_app; reflexivity)). rewrite Hs in C. apply C. }
        specialize (G t E). rewrite S in G. apply app_inv_head in G. injection G. trivial. }
      subst rest. reflexivity.
    + reflexivity.
Qed.

Lemma node_parse_ok nodes s :
  size s <= length_max k -> (length s <= length nodes)%nat ->
  node_parse k nodes s =
  match srun (size s) [] s with
  | inl e => Ok (inl e)
  | inr t => Ok (inr (buf (annot nid t) (skipn (length s) nodes)))
  end.
Proof.
  intros Hl Hn. unfold node_parse. fold (size s).
  rewrite (proj2 (N.ltb_ge _ _) Hl).
  destruct s as [|c s].
  - reflexivity.
  - rewrite (proj2 (N.ltb_ge _ _)) by (rewrite size_cons; lia).
    apply (loop_ok (size (c :: s)) (c :: s) [] nodes); [reflexivity|exact Hl|left; discriminate|exact Hn].
Qed.
End K.

Definition kind_for (s : list N) : kind := if size s <=? 31 then node8 else node64.
Lemma kind_wf s : length_max (kind_for s) <= field_max (kind_for s).
Proof. unfold kind_for. destruct (size s <=? 31); vm_compute; discriminate. Qed.

Lemma sig_new_ok fuel s : size s < 2 ^ 61 ->
  sig_new fuel s =
  match srun (size s) [] s with
  | inl e => Ok (inl e)
  | inr t => Ok (inr (mkSig (kind_for s) (map Some (annot (node_id (kind_for s)) t))))
  end.
Proof.
  intros Hs. unfold sig_new, size_for_length. fold (size s).
  change (length_max node8) with 31. change (length_max node64) with (2 ^ 61 - 1).
  assert (E : (if size s <=? 31 then Ok (size s * size_coeff node8)
     else assert! size s <=? 2 ^ 61 - 1; assert! size s * size_coeff node64 <? 2 ^ 64; Ok (size s * size_coeff node64))
     = Ok (size s * size_coeff (kind_for s))).
  { unfold kind_for. destruct (N.leb_spec (size s) 31); [reflexivity|].
    rewrite (proj2 (N.leb_le _ _)) by lia.
    rewrite (proj2 (N.ltb_lt _ _)) by (cbn [size_coeff node64]; lia). reflexivity. }
  rewrite E. cbn [bind]. unfold sig_parse. fold (size s). change (length_max node8) with 31.
  fold (kind_for s).
  assert (Hc : size_coeff (kind_for s) <> 0) by (unfold kind_for; destruct (size s <=? 31); discriminate).
  rewrite N.mod_mul, N.div_mul by exact Hc.
  assert (Hm : size s <= length_max (kind_for s)).
  { unfold kind_for. destruct (N.leb_spec (size s) 31).
    - exact H.
    - change (length_max node64) with (2 ^ 61 - 1). lia. }
  rewrite (node_parse_ok _ (kind_wf s)); [|exact Hm|rewrite repeat_length; unfold size; lia].
  destruct (srun (size s) [] s) as [e|t]; cbn [bind]; [reflexivity|].
  destruct fuel; cbn [pad_loop N.ltb N.compare bind];
    rewrite skipn_all2 by (rewrite repeat_length; unfold size; lia); unfold buf; rewrite app_nil_r; reflexivity.
Qed.
