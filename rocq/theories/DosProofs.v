(** Proofs about the MS-DOS stub. *)
From Coq Require Import String List NArith Lia.
From Verif Require Import Base FfiSpec FmtSpec FmtModel DosSpec.
Local Open Scope N_scope.
Local Open Scope list_scope.

(** The file: the stub, with some value in its field [lfanew], and anything
    behind it. *)
Definition stub_file (lfanew rest : list N) : list N := firstn 60 STUB_X86 ++ lfanew ++ skipn 64 STUB_X86 ++ rest.
Definition code : list N := skipn 64 STUB_X86.

Lemma stub_fields lf rest : List.length lf = 4%nat ->
  let file := stub_file lf rest in
  field file "magic" = 0x5a4d /\ field file "cblp" = 128 /\ field file "cp" = 1 /\ field file "crlc" = 0
  /\ field file "cparhdr" = 4 /\ field file "minalloc" = 0 /\ field file "maxalloc" = 0xffff
  /\ field file "ss" = 0 /\ field file "sp" = 0x80 /\ field file "ip" = 0 /\ field file "cs" = 0
  /\ field file "lfarlc" = 0x40 /\ field file "ovno" = 0.
Proof. intros L. repeat split. Qed.

Lemma stub_image lf rest : List.length lf = 4%nat -> image (stub_file lf rest) = code.
Proof.
  intros L. destruct lf as [|a [|b [|c [|d [|]]]]]; try discriminate. reflexivity.
Qed.
Lemma stub_size lf rest : program_size (stub_file lf rest) = 128.
Proof. reflexivity. Qed.
Lemma stub_relocations lf rest : relocations (stub_file lf rest) = [].
Proof. reflexivity. Qed.
Lemma stub_needed lf rest : List.length lf = 4%nat -> needed (stub_file lf rest) = 4.
Proof. intros L. unfold needed. now rewrite stub_image. Qed.

Lemma linear_small s o : s <= 0xa000 -> o < 2 ^ 16 -> linear s o = 16 * s + o.
Proof.
  intros S O. unfold linear. rewrite (N.mod_small o) by easy. apply N.mod_small.
  change (2 ^ 16) with 65536 in *. change (2 ^ 20) with 1048576. lia.
Qed.

Section Run.
Context (b : block) (u : N) (P8 : 8 <= paragraphs b) (PL : first b + paragraphs b <= 0xa000) (U : u <= 62).
Local Notation f := (first b).

Definition has_code (m : memory) : Prop := forall i x, nth_error code i = Some x -> m (16 * f + N.of_nat i) = x.

Lemma code_length i x : nth_error code i = Some x -> (i < 64)%nat.
Proof. intros H. change 64%nat with (List.length code). apply nth_error_Some. congruence. Qed.

Lemma not_borrowed c sp o : seg c SS = f -> general c SP = sp -> 62 <= sp < 2 ^ 16 -> (o + u < sp \/ sp <= o) -> o < 2 ^ 16 ->
  ~ borrowed u c (16 * f + o).
Proof.
  intros S G B O O' (k & (K & K') & E). rewrite S, G in E. change (2 ^ 16) with 65536 in *.
  assert (linear f (sp + 65536 - k) = 16 * f + (sp - k)).
  { unfold linear. change (2 ^ 16) with 65536. change (2 ^ 20) with 1048576.
    replace (sp + 65536 - k) with (sp - k + 1 * 65536) by lia. rewrite N.mod_add by easy.
    rewrite (N.mod_small (sp - k)) by lia. apply N.mod_small. lia. }
  lia.
Qed.

Lemma owned o : o < 128 -> owns b (16 * f + o).
Proof. intros O. unfold owns. lia. Qed.

Lemma code_kept c m m' sp : has_code m -> disturbed b u c m m' -> seg c SS = f -> general c SP = sp ->
  sp = 0x7e \/ sp = 0x80 -> has_code m'.
Proof.
  intros H D S G C i x E. pose proof (code_length i x E). rewrite D.
  - now apply H.
  - apply owned. lia.
  - apply (not_borrowed c sp); auto; destruct C; subst sp; change (2 ^ 16) with 65536; lia.
Qed.

Lemma fetch_code c m i x y z : has_code m -> seg c CS = f -> ip c = N.of_nat i ->
  nth_error code i = Some x -> nth_error code (S i) = Some y -> nth_error code (S (S i)) = Some z ->
  fetch c m = decode x y z.
Proof.
  intros H S I X Y Z. unfold fetch. rewrite S, I.
  pose proof (code_length _ _ Z). change (2 ^ 16) with 65536 in *.
  assert (A : forall k v, (k < 64)%nat -> nth_error code k = Some v -> byte_at m f (N.of_nat k) = v).
  { intros k v K E. unfold byte_at. rewrite linear_small; [now apply H|lia|change (2 ^ 16) with 65536; lia]. }
  replace (N.of_nat i + 1) with (N.of_nat (Datatypes.S i)) by lia.
  replace (N.of_nat i + 2) with (N.of_nat (Datatypes.S (Datatypes.S i))) by lia.
  now rewrite (A i x), (A _ y), (A _ z) by (lia || easy).
Qed.

(** The program is about to run the instruction at [pc]. *)
Definition at_pc (M : machine) (pc : nat) (sp : N) (out : list N) : Prop :=
  seg (regs M) CS = f /\ seg (regs M) SS = f /\ ip (regs M) = N.of_nat pc /\ general (regs M) SP = sp
  /\ printed M = out /\ ended M = None /\ has_code (mem M).

Definition good (M : machine) : Prop := printed M = message /\ ended M = Some 1.

Lemma disturbed_refl c m : disturbed b u c m m.
Proof. now intros a. Qed.

Lemma step_cases c m out i n ws M' : fetch c m = Some (i, n) -> step b u (mkMachine c m out None) ws M' ->
  (exists c' m' m'', perform i (forward c n) m = Some (c', m', ws) /\ disturbed b u c' m' m'' /\ M' = mkMachine c' m'' out None)
  \/ (i = Interrupt 0x21 /\ ws = [] /\ exists text al m', high (general c AX) = 9 /\
        text_at m (seg c DS) (general c DX) text /\ al < 256 /\ disturbed b u c m m' /\
        M' = mkMachine (set_reg (forward c n) AX (256 * 9 + al)) m' (out ++ text) None)
  \/ (i = Interrupt 0x21 /\ ws = [] /\ high (general c AX) = 0x4c /\
        exists m', M' = mkMachine c m' out (Some (low (general c AX)))).
Proof.
  intros F S. inversion S; subst; match goal with H : fetch c m = Some _ |- _ => rewrite F in H; injection H as <- <- || injection H as -> <- end.
  - left. eauto 10.
  - right. left. eauto 20.
  - right. right. eauto 10.
Qed.

(** One instruction that is not an interrupt. *)
Lemma later M pc sp out i n : at_pc M pc sp out -> fetch (regs M) (mem M) = Some (i, n) ->
  (forall k, i <> Interrupt k) ->
  (forall c m ws, perform i (forward (regs M) n) (mem M) = Some (c, m, ws) -> Forall (owns b) ws) ->
  (forall c m ws m', perform i (forward (regs M) n) (mem M) = Some (c, m, ws) -> disturbed b u c m m' ->
     finally b u good (mkMachine c m' out None)) ->
  finally b u good M.
Proof.
  destruct M as [c m o e]. unfold at_pc. cbn [regs mem printed ended].
  intros (_ & _ & _ & _ & <- & -> & _) F NI W K.
  assert (exists r, perform i (forward c n) m = Some r) as (((c' & m') & ws) & E).
  { destruct i; cbn [perform]; eauto. now destruct (NI n0). }
  apply finally_later.
  - exists ws, (mkMachine c' m' o None). eapply step_instruction; eauto. apply disturbed_refl.
  - intros ws' M' S. destruct (step_cases _ _ _ _ _ _ _ F S) as [(? & ? & ? & Q & _)|[(Q & _)|(Q & _)]]; [eauto|now destruct (NI 33)..].
  - intros ws' M' S. destruct (step_cases _ _ _ _ _ _ _ F S) as [(? & ? & ? & Q & D & ->)|[(Q & _)|(Q & _)]]; [eauto|now destruct (NI 33)..].
Qed.

(** int 0x21 *)
Lemma run_12 M : at_pc M 12 0x80 message -> general (regs M) AX = 0x4c01 -> finally b u good M.
Proof.
  destruct M as [c m o e]. intros (CS_ & SS_ & IP_ & SP_ & O & E & H) A. cbn [regs mem printed ended] in *. subst o e.
  assert (F : fetch c m = Some (Interrupt 0x21, 2)) by (rewrite (fetch_code c m 12 0xcd 0x21 0x54); auto).
  apply finally_later.
  - exists [], (mkMachine c m message (Some (low (general c AX)))). eapply step_exit; [exact F|]. now rewrite A.
  - intros ws M' S. destruct (step_cases _ _ _ _ _ _ _ F S) as [(? & ? & ? & Q & _)|[(_ & -> & _)|(_ & -> & _)]]; [discriminate|constructor..].
  - intros ws M' S. destruct (step_cases _ _ _ _ _ _ _ F S) as [(? & ? & ? & Q & _)|[(_ & _ & ? & ? & ? & Q & _)|(_ & _ & _ & m' & ->)]].
    + discriminate.
    + rewrite A in Q. discriminate.
    + apply finally_now. split; [easy|]. cbn [ended]. now rewrite A.
Qed.

(** mov ax, 0x4c01 *)
Lemma run_9 M : at_pc M 9 0x80 message -> finally b u good M.
Proof.
  intros H. pose proof H as (CS_ & SS_ & IP_ & SP_ & O & E & HC).
  eapply later; [exact H| | | |].
  - rewrite (fetch_code _ _ 9 0xb8 0x01 0x4c); auto. reflexivity.
  - discriminate.
  - intros c m ws Q. injection Q as <- <- <-. constructor.
  - intros c m ws m' Q D. injection Q as <- <- <-. apply run_12.
    + repeat split; cbn; auto; [now rewrite IP_|]. eapply code_kept; eauto.
    + easy.
Qed.

Lemma text_code m : has_code m -> text_at m f 14 message.
Proof.
  intros H.
  assert (A : forall k v, (k < 64)%nat -> nth_error code k = Some v -> byte_at m f (N.of_nat k) = v).
  { intros k v K E. unfold byte_at. rewrite linear_small; [now apply H|lia|change (2 ^ 16) with 65536; lia]. }
  split; [|split].
  - intros i x E. replace (14 + N.of_nat i) with (N.of_nat (14 + i)) by lia.
    assert (I : (i < 42)%nat) by (change 42%nat with (List.length message); apply nth_error_Some; congruence).
    apply A; [lia|]. rewrite <- E. change code with (firstn 14 code ++ message ++ skipn 56 code).
    rewrite nth_error_app2 by (cbn; lia). change (List.length (firstn 14 code)) with 14%nat.
    rewrite nth_error_app1 by (change (List.length message) with 42%nat; lia). f_equal. lia.
  - change (14 + N.of_nat (List.length message)) with (N.of_nat 56). apply A; [lia|reflexivity].
  - intros I. assert (forallb (fun x => negb (x =? dollar)) message = true) as G by reflexivity.
    rewrite forallb_forall in G. specialize (G _ I). discriminate.
Qed.

(** The text at an address is unique. *)
Lemma text_unique m s o l l' : text_at m s o l -> text_at m s o l' -> l = l'.
Proof.
  intros (A & B & C) (A' & B' & C').
  assert (X : forall l l' : list N, (forall i x, nth_error l i = Some x -> byte_at m s (o + N.of_nat i) = x) -> ~ In dollar l ->
    byte_at m s (o + N.of_nat (List.length l')) = dollar -> (List.length l <= List.length l')%nat).
  { intros p q P NP Q. destruct (Nat.le_gt_cases (List.length p) (List.length q)) as [|G]; [easy|]. exfalso.
    destruct (nth_error p (List.length q)) as [x|] eqn:E; [|apply nth_error_None in E; lia].
    pose proof (P _ _ E). apply NP. replace dollar with x by congruence. eapply nth_error_In, E. }
  pose proof (X l l' A C B'). pose proof (X l' l A' C' B).
  assert (L : List.length l = List.length l') by lia.
  apply nth_ext with 0 0; [easy|]. intros i I.
  destruct (nth_error l i) as [x|] eqn:E; [|apply nth_error_None in E; lia].
  destruct (nth_error l' i) as [y|] eqn:E'; [|apply nth_error_None in E'; lia].
  rewrite (nth_error_nth _ _ 0 E), (nth_error_nth _ _ 0 E'). pose proof (A _ _ E). pose proof (A' _ _ E'). congruence.
Qed.

(** int 0x21 *)
Lemma run_7 M : at_pc M 7 0x80 [] -> high (general (regs M) AX) = 9 -> general (regs M) DX = 14 -> seg (regs M) DS = f ->
  finally b u good M.
Proof.
  destruct M as [c m o e]. intros (CS_ & SS_ & IP_ & SP_ & O & E & H) A DX_ DS_. cbn [regs mem printed ended] in *. subst o e.
  assert (F : fetch c m = Some (Interrupt 0x21, 2)) by (rewrite (fetch_code c m 7 0xcd 0x21 0xb8); auto).
  pose proof (text_code m H) as T.
  apply finally_later.
  - do 2 eexists. eapply step_print with (al := 0); [exact F|exact A|rewrite DX_, DS_; exact T|easy|apply disturbed_refl].
  - intros ws M' S. destruct (step_cases _ _ _ _ _ _ _ F S) as [(? & ? & ? & Q & _)|[(_ & -> & _)|(_ & -> & _)]]; [discriminate|constructor..].
  - intros ws M' S.
    destruct (step_cases _ _ _ _ _ _ _ F S) as [(? & ? & ? & Q & _)|[(_ & _ & t & al & m' & _ & T' & AL & D & ->)|(_ & _ & Q & _)]].
    + discriminate.
    + rewrite DX_, DS_ in T'. rewrite (text_unique _ _ _ _ _ T' T). apply run_9.
      repeat split; cbn; auto; [now rewrite IP_|]. eapply code_kept; [exact H|exact D|..]; eauto.
    + rewrite A in Q. discriminate.
Qed.

(** mov ah, 9 *)
Lemma run_5 M : at_pc M 5 0x80 [] -> general (regs M) DX = 14 -> seg (regs M) DS = f -> finally b u good M.
Proof.
  intros H DX_ DS_. pose proof H as (CS_ & SS_ & IP_ & SP_ & O & E & HC).
  eapply later; [exact H| | | |].
  - rewrite (fetch_code _ _ 5 0xb4 0x09 0xcd); auto. reflexivity.
  - discriminate.
  - intros c m ws Q. injection Q as <- <- <-. constructor.
  - intros c m ws m' Q D. injection Q as <- <- <-. apply run_7; auto.
    + repeat split; cbn -[N.mul N.add]; auto; [now rewrite IP_|]. eapply code_kept; eauto.
    + cbn [DosSpec.regs set_reg general forward]. destruct (reg_eq AX AX) as [_|]; [|easy].
      unfold high, low. set (l := general (DosSpec.regs M) AX mod 256).
      assert (l < 256) by now apply N.mod_upper_bound. clearbody l.
      change (2 ^ 16) with 65536. rewrite (N.mod_small (256 * 9 + l)) by lia.
      replace (256 * 9 + l) with (l + 9 * 256) by lia. rewrite N.div_add, N.div_small by easy. easy.
Qed.

(** mov dx, 0xe *)
Lemma run_2 M : at_pc M 2 0x80 [] -> seg (regs M) DS = f -> finally b u good M.
Proof.
  intros H DS_. pose proof H as (CS_ & SS_ & IP_ & SP_ & O & E & HC).
  eapply later; [exact H| | | |].
  - rewrite (fetch_code _ _ 2 0xba 0x0e 0x00); auto. reflexivity.
  - discriminate.
  - intros c m ws Q. injection Q as <- <- <-. constructor.
  - intros c m ws m' Q D. injection Q as <- <- <-. apply run_5; auto.
    repeat split; cbn; auto; [now rewrite IP_|]. eapply code_kept; eauto.
Qed.

(** pop ds *)
Lemma run_1 M : at_pc M 1 0x7e [] -> word_at (mem M) f 0x7e = f -> finally b u good M.
Proof.
  intros H W. pose proof H as (CS_ & SS_ & IP_ & SP_ & O & E & HC).
  eapply later; [exact H| | | |].
  - rewrite (fetch_code _ _ 1 0x1f 0xba 0x0e); auto. reflexivity.
  - discriminate.
  - intros c m ws Q. injection Q as <- <- <-. constructor.
  - intros c m ws m' Q D. injection Q as <- <- <-. apply run_2.
    + repeat split; cbn -[N.add]; auto; [now rewrite IP_|now rewrite SP_|].
      eapply code_kept; [exact HC|exact D|auto| |right; reflexivity]. cbn -[N.add]. now rewrite SP_.
    + cbn [DosSpec.regs set_reg set_seg seg forward general]. destruct (segment_eq DS DS) as [_|]; [|easy].
      rewrite SS_, SP_, W. apply N.mod_small. change (2 ^ 16) with 65536. lia.
Qed.

(** push cs *)
Lemma run_0 M : at_pc M 0 0x80 [] -> finally b u good M.
Proof.
  intros H. pose proof H as (CS_ & SS_ & IP_ & SP_ & O & E & HC).
  assert (A1 : linear f 0x7e = 16 * f + 0x7e) by (apply linear_small; [lia|easy]).
  assert (A2 : linear f 0x7f = 16 * f + 0x7f) by (apply linear_small; [lia|easy]).
  eapply later; [exact H| | | |].
  - rewrite (fetch_code _ _ 0 0x0e 0x1f 0xba); auto. reflexivity.
  - discriminate.
  - intros c m ws Q. cbn [perform forward seg general] in Q. rewrite SS_, SP_ in Q.
    change ((0x80 + 2 ^ 16 - 2) mod 2 ^ 16) with 0x7e in Q. change (0x7e + 1) with 0x7f in Q. rewrite A1, A2 in Q.
    remember (16 * f) as g eqn:G in Q. injection Q as _ _ <-. subst g.
    repeat apply Forall_cons; try apply Forall_nil; unfold owns; lia.
  - intros c m ws m' Q D. cbn [perform forward seg general] in Q. rewrite SS_, SP_, CS_ in Q.
    change ((0x80 + 2 ^ 16 - 2) mod 2 ^ 16) with 0x7e in Q. change (0x7e + 1) with 0x7f in Q. rewrite A1, A2 in Q.
    remember (16 * f) as g eqn:G in Q. injection Q as <- <- _. subst g.
    assert (HC' : has_code (put (put (mem M) (16 * f + 126) (low f)) (16 * f + 127) (high f))).
    { intros i x I. pose proof (code_length i x I). unfold put.
      destruct (N.eqb_spec (16 * f + N.of_nat i) (16 * f + 127)); [lia|].
      destruct (N.eqb_spec (16 * f + N.of_nat i) (16 * f + 126)); [lia|]. now apply HC. }
    assert (NB : forall o, o = 126 \/ o = 127 -> m' (16 * f + o) = put (put (mem M) (16 * f + 126) (low f)) (16 * f + 127) (high f) (16 * f + o)).
    { intros o O'. apply D; [apply owned; lia|].
      apply not_borrowed with 0x7e; auto; change (2 ^ 16) with 65536; lia. }
    apply run_1.
    + repeat split; cbn -[N.add]; auto; [now rewrite IP_|]. eapply code_kept; [exact HC'|exact D|auto|reflexivity|auto].
    + cbn [DosSpec.mem]. unfold word_at, byte_at. change (0x7e + 1) with 0x7f. rewrite A1, A2, !NB by auto. unfold put.
      rewrite N.eqb_refl. destruct (N.eqb_spec (16 * f + 126) (16 * f + 127)); [lia|]. rewrite N.eqb_refl.
      unfold low, high. pose proof (N.div_mod f 256 ltac:(easy)). lia.
Qed.
End Run.

Lemma stub_finally lf rest b u M : List.length lf = 4%nat -> loaded (stub_file lf rest) b M -> 8 <= paragraphs b -> u <= 62 ->
  finally b u good M.
Proof.
  intros L H P U. destruct H as [_ _ _ (PF & PL) I (C & IP_) (S & SP_) _ (O & E)].
  destruct (stub_fields lf rest L) as (_ & _ & _ & _ & _ & _ & _ & FS & FP & FI & FC & _).
  rewrite FC in C. rewrite FI in IP_. rewrite FS in S. rewrite FP in SP_.
  rewrite stub_relocations, stub_image in I by easy. cbn [fold_left] in I.
  apply run_0; auto. repeat split; auto; [now rewrite C, N.add_0_r|now rewrite S, N.add_0_r].
Qed.
