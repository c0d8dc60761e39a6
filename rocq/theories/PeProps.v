(** C70: the constants of the PE format. *)
From Coq Require Import String List NArith Bool Arith Lia.
From Verif Require Import AbiModel AbiProofs PeSpec PeModel FmtModel.
Import ListNotations.
Local Open Scope string_scope.

(** Constants with the wrong number: see [pe_constants_refuted]. *)
Definition pe_wrong : list string :=
  [ "PE_MAGIC_OH32P"; "SUBSYSTEM_EFI_APPLICATION"; "SUBSYSTEM_EFI_BOOT_SERVICE_DRIVER"
  ; "SUBSYSTEM_EFI_RUNTIME_DRIVER"; "SUBSYSTEM_EFI_ROM"; "SUBSYSTEM_XBOX"
  ; "SUBSYSTEM_WINDOWS_BOOT_APPLICATION" ].

(** Every other number of the PE format is exported with its value, and what is
    exported is a number of the PE format. *)
Theorem pe_constants_partial n :
  ~ In n pe_wrong ->
  (forall v, In (n, v) pe_numbers -> lookup n pe_constants = Some v)
  /\ (forall v, lookup n pe_constants = Some v -> In (n, v) pe_numbers).
Proof.
  intros W. split; intros v I.
  - assert (H : forallb (fun '(n, v) => existsb (String.eqb n) pe_wrong
       || match lookup n pe_constants with Some w => N.eqb v w | None => false end) pe_numbers = true)
      by (vm_compute; reflexivity).
    rewrite forallb_forall in H. specialize (H _ I). cbn beta iota in H. apply orb_prop in H as [H|H].
    + apply existsb_exists in H as (x & J & E). apply String.eqb_eq in E. now subst.
    + destruct (lookup n pe_constants); [|discriminate]. apply N.eqb_eq in H. now subst.
  - apply lookup_in in I.
    assert (H : forallb (fun '(n, v) => existsb (String.eqb n) pe_wrong
       || match lookup n pe_numbers with Some w => N.eqb v w | None => false end) pe_constants = true)
      by (vm_compute; reflexivity).
    rewrite forallb_forall in H. specialize (H _ I). cbn beta iota in H. apply orb_prop in H as [H|H].
    + apply existsb_exists in H as (x & J & E). apply String.eqb_eq in E. now subst.
    + destruct (lookup n pe_numbers) eqn:L; [|discriminate]. apply N.eqb_eq in H. subst.
      now apply lookup_in.
Qed.
Print Assumptions pe_constants_partial.

(** The others are exported with a wrong value. *)
Theorem pe_constants_all_refuted n :
  In n pe_wrong -> exists v w, In (n, v) pe_numbers /\ lookup n pe_constants = Some w /\ v <> w.
Proof.
  intros H. cbn in H.
  repeat (destruct H as [<-|H]; [do 2 eexists; split; [apply lookup_in; reflexivity|]; split; [reflexivity|discriminate]|]).
  contradiction.
Qed.
Print Assumptions pe_constants_all_refuted.

(** How they are wrong: the magic of PE32+ is that of PE32, and a subsystem has
    the number that its decimal digits spell in hexadecimal. *)
Definition as_hexadecimal (v : N) : N := (16 * (v / 10) + v mod 10)%N.
Theorem pe_constants_wrong_partial n v :
  In n pe_wrong -> In (n, v) pe_numbers ->
  lookup n pe_constants
  = if prefix "SUBSYSTEM_" n then Some (as_hexadecimal v) else lookup "PE_MAGIC_OH32" pe_constants.
Proof.
  intros H I.
  assert (F : forallb (fun '(n, v) => negb (existsb (String.eqb n) pe_wrong)
     || match lookup n pe_constants,
              (if prefix "SUBSYSTEM_" n then Some (as_hexadecimal v) else lookup "PE_MAGIC_OH32" pe_constants) with
        | Some w, Some u => N.eqb w u | _, _ => false end) pe_numbers = true)
    by (vm_compute; reflexivity).
  rewrite forallb_forall in F. specialize (F _ I). cbn beta iota in F. apply orb_prop in F as [F|F].
  - apply negb_true_iff in F. rewrite <- not_true_iff_false in F. destruct F.
    apply existsb_exists. exists n. split; [exact H|apply String.eqb_refl].
  - destruct (lookup n pe_constants), (if prefix "SUBSYSTEM_" n then _ else _); try discriminate.
    apply N.eqb_eq in F. now subst.
Qed.
Print Assumptions pe_constants_wrong_partial.
Example pe_constants_wrong_case :
  In "SUBSYSTEM_XBOX" pe_wrong /\ In ("SUBSYSTEM_XBOX", 14%N) pe_numbers
  /\ lookup "SUBSYSTEM_XBOX" pe_constants = Some 0x14%N.
Proof. split; [vm_compute; tauto|split; [apply lookup_in|]; reflexivity]. Qed.

(** Every subsystem and every machine can be told from the others, and so can
    the alignments of sections. *)
Definition family (n : string) : option nat :=
  if prefix "MACHINE_" n then Some 0
  else if prefix "SUBSYSTEM_" n then Some 1
  else if prefix "SECTION_CHARACTERISTIC_ALIGN_" n then Some 2
  else if prefix "DATA_DIRECTORY_" n then Some 3
  else if prefix "CHARACTERISTIC_" n then Some 4
  else if prefix "DLL_CHARACTERISTIC_" n then Some 5
  else None.
Theorem pe_families_distinct f a b v :
  family a = Some f -> family b = Some f ->
  lookup a pe_constants = Some v -> lookup b pe_constants = Some v -> a = b.
Proof.
  intros Fa Fb A B. apply lookup_in in A, B.
  assert (H : forallb (fun '(a, v) => match family a with None => true | Some f => forallb (fun '(b, w) =>
      match family b with None => true | Some g => negb (Nat.eqb f g) end
      || negb (v =? w)%N || String.eqb a b) pe_constants end) pe_constants = true)
    by (vm_compute; reflexivity).
  rewrite forallb_forall in H. specialize (H _ A). cbn beta iota in H. rewrite Fa in H.
  rewrite forallb_forall in H. specialize (H _ B). cbn beta iota in H. rewrite Fb in H.
  rewrite Nat.eqb_refl, N.eqb_refl in H. cbn [negb orb] in H. now apply String.eqb_eq.
Qed.
Print Assumptions pe_families_distinct.

(** The constants fit their types: those of sections 32 bits, all others 16. *)
Theorem pe_constants_fit n v :
  lookup n pe_constants = Some v ->
  (v < 2 ^ (if prefix "SECTION_" n then 32 else 16))%N.
Proof.
  intros A. apply lookup_in in A.
  assert (H : forallb (fun '(n, v) => (v <? 2 ^ (if prefix "SECTION_" n then 32 else 16))%N) pe_constants = true)
    by (vm_compute; reflexivity).
  rewrite forallb_forall in H. specialize (H _ A). now apply N.ltb_lt.
Qed.
Print Assumptions pe_constants_fit.

(** The signature is the text PE followed by two zeros. *)
Theorem pe_signature :
  PE_MAGIC = (map (fun c => N.of_nat (Ascii.nat_of_ascii c)) (list_ascii_of_string "PE") ++ [0; 0])%list%N.
Proof. reflexivity. Qed.
Print Assumptions pe_signature.

(** The time stamps that are not valid: no bit set, and all bits set. *)
Theorem pe_timestamps t : (t < 2 ^ 32)%N ->
  (In t INVALID_TIMESTAMPS <-> exists b, forall i, (i < 32)%N -> N.testbit t i = b).
Proof.
  intros L. split.
  - intros [<- | [<- | []]]; [exists false|exists true]; intros i I.
    + apply N.bits_0.
    + change 0xffffffff%N with (N.ones 32). now apply N.ones_spec_low.
  - intros ([] & H); cbn [INVALID_TIMESTAMPS In].
    + right. left. change (N.ones 32 = t). apply N.bits_inj. intros i. destruct (N.lt_ge_cases i 32) as [I|I].
      * rewrite N.ones_spec_low by easy. symmetry. auto.
      * rewrite N.ones_spec_high by easy. symmetry. rewrite <- (N.mod_small t (2 ^ 32)) by easy.
        now apply N.mod_pow2_bits_high.
    + left. apply N.bits_inj. intros i. rewrite N.bits_0. destruct (N.lt_ge_cases i 32) as [I|I].
      * symmetry. auto.
      * symmetry. rewrite <- (N.mod_small t (2 ^ 32)) by easy. now apply N.mod_pow2_bits_high.
Qed.
Print Assumptions pe_timestamps.
Example pe_timestamps_case : (0xffffffff < 2 ^ 32)%N /\ In 0xffffffff%N INVALID_TIMESTAMPS /\ ~ In 1%N INVALID_TIMESTAMPS.
Proof. cbn. repeat split; [auto|intros [?|[?|[]]]; discriminate]. Qed.

(** The definitions of FmtModel.v are those of the table. *)
Theorem pe_same :
  lookup "PE_MAGIC_OH32" pe_constants = Some PE_MAGIC_OH32
  /\ lookup "PE_MAGIC_OH32P" pe_constants = Some PE_MAGIC_OH32P
  /\ lookup "SUBSYSTEM_EFI_APPLICATION" pe_constants = Some SUBSYSTEM_EFI_APPLICATION
  /\ lookup "SUBSYSTEM_EFI_BOOT_SERVICE_DRIVER" pe_constants = Some SUBSYSTEM_EFI_BOOT_SERVICE_DRIVER
  /\ lookup "SUBSYSTEM_EFI_RUNTIME_DRIVER" pe_constants = Some SUBSYSTEM_EFI_RUNTIME_DRIVER
  /\ lookup "SUBSYSTEM_EFI_ROM" pe_constants = Some SUBSYSTEM_EFI_ROM
  /\ lookup "SUBSYSTEM_XBOX" pe_constants = Some SUBSYSTEM_XBOX
  /\ lookup "SUBSYSTEM_WINDOWS_BOOT_APPLICATION" pe_constants = Some SUBSYSTEM_WINDOWS_BOOT_APPLICATION.
Proof. repeat split. Qed.

Example pe_amd64 : ~ In "MACHINE_AMD64" pe_wrong /\ lookup "MACHINE_AMD64" pe_constants = Some 0x8664%N
  /\ In ("SECTION_CHARACTERISTIC_ALIGN_16BYTES", 0x500000%N) pe_numbers.
Proof.
  split; [|split; [reflexivity|apply lookup_in; reflexivity]].
  intros H. cbn in H. repeat (destruct H as [H|H]; [discriminate|]). exact H.
Qed.
