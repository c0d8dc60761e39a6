(** C119: the MS-DOS stub. *)
From Coq Require Import String List NArith ZArith Lia.
From Verif Require Import Base FfiSpec FmtSpec LayModel FfiModel FfiProofs FmtModel FmtProofs FmtProps DosSpec DosProofs.
Local Open Scope N_scope.
Local Open Scope list_scope.

(** A file that starts with the stub is a program for MS-DOS: wherever it is
    loaded, whatever is in memory and registers, whatever follows the stub in the
    file and whatever its field [lfanew] was set to, and whenever interrupts come,
    it prints the message and ends with code 1, and it writes to its own memory
    only.  This takes 128 bytes of memory, and interrupts and services that use no
    more than 62 bytes of its stack. *)
Theorem stub_runs_partial lfanew rest b u M :
  List.length lfanew = 4%nat ->
  loaded (firstn 60 STUB_X86 ++ lfanew ++ skipn 64 STUB_X86 ++ rest) b M ->
  128 <= 16 * paragraphs b -> u <= 62 ->
  finally b u (fun M' => printed M' = message /\ ended M' = Some 1) M.
Proof. intros L H P U. apply (stub_finally lfanew rest); auto. lia. Qed.
Print Assumptions stub_runs_partial.

(** A program for MS-DOS, loaded at 0x1000; all other memory holds dollar signs. *)
Definition example_memory : memory :=
  fun a => if a <? 0x1000 then dollar else nth (N.to_nat (a - 0x1000)) code dollar.
Definition example_machine : machine :=
  mkMachine (mkCpu (fun r => match r with SP => 0x80 | _ => 7 end) (fun s => match s with CS | SS => 0x100 | _ => 0xf0 end) 0)
    example_memory [] None.
Lemma example_loaded p : 4 <= p -> p <= 0x100 -> loaded (STUB_X86 ++ [80; 69; 0; 0]) (mkBlock 0x100 p) example_machine.
Proof.
  intros P P'. change (STUB_X86 ++ [80; 69; 0; 0]) with (stub_file (firstn 4 (skipn 60 STUB_X86)) [80; 69; 0; 0]).
  constructor; try easy.
  - cbn [first paragraphs]. lia.
  - intros i x. rewrite stub_relocations, stub_image by easy. cbn [fold_left]. intros E.
    pose proof (code_length _ _ E). change (16 * first (mkBlock 256 p)) with 0x1000.
    cbn [mem example_machine]. unfold example_memory.
    destruct (N.ltb_spec (0x1000 + N.of_nat i) 0x1000); [lia|].
    replace (N.to_nat (0x1000 + N.of_nat i - 0x1000)) with i by lia. now apply nth_error_nth.
Qed.

Example stub_runs_case :
  loaded (firstn 60 STUB_X86 ++ [128; 0; 0; 0] ++ skipn 64 STUB_X86 ++ [80; 69; 0; 0]) (mkBlock 0x100 8) example_machine
  /\ 128 <= 16 * paragraphs (mkBlock 0x100 8)
  /\ message <> [].
Proof. split; [|easy]. now apply example_loaded. Qed.

(** The header asks for the 64 bytes of the program and nothing else: its stack,
    which the comments count as another 64 bytes, is not part of the memory it
    needs.  MS-DOS may load it into any block of at least 64 bytes; in each that
    is smaller than 128 the first instruction writes to memory that belongs to
    someone else. *)
Theorem stub_stack_refuted lfanew rest b u M :
  List.length lfanew = 4%nat ->
  loaded (firstn 60 STUB_X86 ++ lfanew ++ skipn 64 STUB_X86 ++ rest) b M ->
  16 * paragraphs b < 128 ->
  needed (firstn 60 STUB_X86 ++ lfanew ++ skipn 64 STUB_X86 ++ rest) = 4 /\
  (exists ws M', step b u M ws M' /\ ~ Forall (owns b) ws) /\
  forall ws M', step b u M ws M' -> Forall (fun a => ~ owns b a) ws /\ ws <> [].
Proof.
  intros L H P. split; [now apply stub_needed|].
  destruct H as [_ _ EN (PF & PL) I (C & IP_) (S & SP_) _ (O & E)].
  fold (stub_file lfanew rest) in *.
  destruct (stub_fields lfanew rest L) as (_ & _ & _ & _ & _ & _ & _ & FS & FP & FI & FC & _).
  rewrite FC, N.add_0_r in C. rewrite FI in IP_. rewrite FS, N.add_0_r in S. rewrite FP in SP_.
  rewrite stub_relocations, stub_image in I by easy. cbn [fold_left] in I. rewrite stub_needed in EN by easy.
  destruct M as [c m out e]. cbn [DosSpec.regs DosSpec.mem printed ended] in *. subst out e.
  assert (A : forall k v, (k < 64)%nat -> nth_error code k = Some v -> byte_at m (first b) (N.of_nat k) = v).
  { intros k v K Q. unfold byte_at. rewrite linear_small; [now apply I|lia|change (2 ^ 16) with 65536; lia]. }
  assert (F : fetch c m = Some (Push CS, 1)).
  { unfold fetch. rewrite C, IP_. change (0 + 1) with (N.of_nat 1). change (0 + 2) with (N.of_nat 2). change 0 with (N.of_nat 0).
    rewrite (A 0%nat 0x0e), (A 1%nat 0x1f), (A 2%nat 0xba) by (lia || reflexivity). reflexivity. }
  set (a := linear (first b) 0x7e). set (a' := linear (first b) 0x7f).
  assert (A1 : a = 16 * first b + 0x7e) by (apply linear_small; [lia|easy]).
  assert (A2 : a' = 16 * first b + 0x7f) by (apply linear_small; [lia|easy]).
  assert (Q : exists c' m', perform (Push CS) (forward c 1) m = Some (c', m', [a; a'])).
  { cbn [perform forward seg general]. rewrite S, SP_. do 2 eexists. reflexivity. }
  destruct Q as (c' & m' & Q).
  assert (X : Forall (fun x => ~ owns b x) [a; a']) by (repeat apply Forall_cons; try apply Forall_nil; unfold owns; lia).
  split.
  - exists [a; a'], (mkMachine c' m' [] None). split; [eapply step_instruction; [exact F|exact Q|apply disturbed_refl]|].
    intros Y. inversion Y. inversion X. easy.
  - intros ws M' St. destruct (step_cases _ _ _ _ _ _ _ _ _ F St) as [(? & ? & ? & Q' & _)|[(Z & _)|(Z & _)]]; [|easy..].
    rewrite Q in Q'. injection Q' as _ _ <-. split; [exact X|easy].
Qed.
Print Assumptions stub_stack_refuted.
Example stub_stack_case : loaded (firstn 60 STUB_X86 ++ [128; 0; 0; 0] ++ skipn 64 STUB_X86 ++ [80; 69; 0; 0]) (mkBlock 0x100 4) example_machine.
Proof. now apply example_loaded. Qed.

(** So the owner of that memory may change it, and the message is not printed. *)
Theorem stub_message_refuted : exists file b M ws M',
  firstn 128 file = STUB_X86 /\ loaded file b M /\ steps b 0 M ws M' /\ ended M' = Some 1 /\ printed M' = [].
Proof.
  set (other := fun m : memory => fun a => if (a =? 0x107e) || (a =? 0x107f) then 0 else m a).
  exists (STUB_X86 ++ [80; 69; 0; 0]), (mkBlock 0x100 4), example_machine.
  assert (D : forall c m, disturbed (mkBlock 0x100 4) 0 c m (other m)).
  { intros c m a (_ & A) _. cbn [first paragraphs] in A. unfold other.
    destruct (N.eqb_spec a 0x107e); [lia|]. destruct (N.eqb_spec a 0x107f); [lia|]. easy. }
  do 2 eexists. split; [reflexivity|]. split; [now apply example_loaded|]. split.
  { eapply steps_more. { eapply step_instruction; [reflexivity|reflexivity|apply D]. }
    eapply steps_more. { eapply step_instruction; [reflexivity|reflexivity|apply D]. }
    eapply steps_more. { eapply step_instruction; [reflexivity|reflexivity|apply D]. }
    eapply steps_more. { eapply step_instruction; [reflexivity|reflexivity|apply D]. }
    eapply steps_more. { eapply step_print with (text := []) (al := 0); [reflexivity|reflexivity| |easy|apply D].
                         split; [|split]; [now intros [|i] x|reflexivity|easy]. }
    eapply steps_more. { eapply step_instruction; [reflexivity|reflexivity|apply D]. }
    eapply steps_more. { eapply step_exit with (m' := example_memory); reflexivity. }
    apply steps_none. }
  split; reflexivity.
Qed.
Print Assumptions stub_message_refuted.

Lemma firstn_bytes n l : bytes l -> bytes (firstn n l).
Proof. intros B. unfold bytes in *. rewrite <- (firstn_skipn n l), Forall_app in B. apply B. Qed.
Lemma skipn_bytes n l : bytes l -> bytes (skipn n l).
Proof. intros B. unfold bytes in *. rewrite <- (firstn_skipn n l), Forall_app in B. apply B. Qed.

(** What MS-DOS reads in the header of any file is what the header type reads. *)
Theorem stub_header_view h file : bytes file -> (28 <= List.length file)%nat ->
  exists o, from_bytes h Header (slice file 0 28) = Ok o /\
  forall e, In e mz_header -> numeric e = true -> number h Header (name e) o = Some (Z.of_N (field file (name e))).
Proof.
  intros B L.
  destruct (mz_read h Header mz_header 28 (slice file 0 28) mz_H) as (o & F & _ & R).
  - unfold slice. rewrite skipn_O, firstn_length. lia.
  - unfold slice. rewrite skipn_O. now apply firstn_bytes.
  - exists o. split; [exact F|]. intros e I N. destruct (R e I) as (_ & R'). rewrite (R' N). do 2 f_equal.
    assert (S : forall a n, (a + n <= 28)%nat -> slice (slice file 0 28) a (a + n) = firstn n (skipn a file)).
    { intros a n A. unfold slice. rewrite skipn_O, Nat.sub_0_r, skipn_firstn_comm, firstn_firstn. f_equal. lia. }
    cbn [mz_header In] in I.
    repeat (destruct I as [<-|I]; [try discriminate N; cbn [name start len num]; rewrite S by (cbn; lia); reflexivity|]).
    easy.
Qed.
Print Assumptions stub_header_view.
Example stub_header_case : bytes STUB_X86 /\ (28 <= List.length STUB_X86)%nat /\ field STUB_X86 "sp" = 0x80.
Proof. split; [apply stub_checksum|]. split; [cbn; lia|reflexivity]. Qed.

(** Another program can follow the stub as it is: [lfanew] leads to it.  The field
    can be set to anything else and is read as that. *)
Theorem stub_prepended h lfanew rest : List.length lfanew = 4%nat -> bytes lfanew ->
  let file := firstn 60 STUB_X86 ++ lfanew ++ skipn 64 STUB_X86 ++ rest in
  (exists o, from_bytes h HeaderExt (slice file 28 64) = Ok o /\ number h HeaderExt "lfanew" o = Some (Z.of_N (little lfanew)))
  /\ (file = STUB_X86 ++ rest -> skipn (N.to_nat (little lfanew)) file = rest).
Proof.
  intros L B file. destruct lfanew as [|a [|b [|c [|d [|]]]]]; try discriminate. split.
  - set (data := slice file 28 64). assert (BS : bytes (firstn 36 data)).
    { change (firstn 36 data) with (slice STUB_X86 28 60 ++ [a; b; c; d]). apply Forall_app. split; [|exact B].
      unfold slice. apply firstn_bytes, skipn_bytes, stub_checksum. }
    change (firstn 36 data) with data in BS.
    destruct (mz_read h HeaderExt mz_ext 36 data mz_E eq_refl BS) as (o & F & _ & R).
    exists o. split; [exact F|]. destruct (R (num "lfanew" 32 4)) as (_ & R'); [cbn; tauto|]. exact (R' eq_refl).
  - intros E. change (firstn 60 STUB_X86 ++ [a; b; c; d] ++ skipn 64 STUB_X86 ++ rest = STUB_X86 ++ rest) in E.
    assert (firstn 4 (skipn 60 file) = firstn 4 (skipn 60 (STUB_X86 ++ rest))) as G by (unfold file; now rewrite E).
    change ([a; b; c; d] = [128; 0; 0; 0]) in G. injection G as -> -> -> ->. reflexivity.
Qed.
Print Assumptions stub_prepended.
Example stub_prepended_case : bytes [128; 0; 0; 0]
  /\ firstn 60 STUB_X86 ++ [128; 0; 0; 0] ++ skipn 64 STUB_X86 ++ [80; 69; 0; 0] = STUB_X86 ++ [80; 69; 0; 0].
Proof. split; [|reflexivity]. unfold bytes. repeat constructor. Qed.

(** The checksum of the stub is valid as it is; after another value was stored in
    [lfanew] it is if and only if the sum of the two words is the same. *)
Theorem stub_checksum_lfanew lfanew : List.length lfanew = 4%nat ->
  sum16 (firstn 60 STUB_X86 ++ lfanew ++ skipn 64 STUB_X86) = Ok 0xffff <-> total (words lfanew) mod 2 ^ 16 = 128.
Proof.
  intros L. rewrite sum16_value.
  rewrite (words_app 60), total_app by (cbn; lia || (exists 30%nat; reflexivity)).
  rewrite (words_app 4), total_app by (rewrite L; lia || (exists 2%nat; reflexivity)).
  set (x := total (words lfanew)). clearbody x.
  set (p := total (words (firstn 60 STUB_X86))). set (q := total (words (skipn 64 STUB_X86))).
  assert (S : (p + q) mod 65536 = 0xff7f) by reflexivity. clearbody p q. change (2 ^ 16) with 65536.
  replace (p + (x + q)) with (x + (p + q)) by lia. rewrite <- N.add_mod_idemp_r, S by easy.
  rewrite <- N.add_mod_idemp_l by easy. assert (x mod 65536 < 65536) by now apply N.mod_upper_bound.
  set (y := x mod 65536) in *. clearbody y. split.
  - intros Q. assert (E : (y + 65407) mod 65536 = 65535) by congruence.
    destruct (N.lt_ge_cases (y + 65407) 65536) as [C|C].
    + rewrite N.mod_small in E by easy. lia.
    + replace (y + 65407) with (y - 129 + 1 * 65536) in E by lia. rewrite N.mod_add, N.mod_small in E by lia. lia.
  - intros ->. reflexivity.
Qed.
Print Assumptions stub_checksum_lfanew.
Example stub_checksum_lfanew_case : total (words [128; 0; 0; 0]) mod 2 ^ 16 = 128 /\ total (words [0; 1; 0; 0]) mod 2 ^ 16 <> 128.
Proof. split; [reflexivity|discriminate]. Qed.
