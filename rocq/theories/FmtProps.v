(** C49, C50, C68 and C70: executable formats. *)
From Coq Require Import String.
From Coq Require Import List.
From Verif Require Import Base FfiSpec FmtSpec LayModel FfiModel FfiProofs FmtModel FmtProofs.

(* ------------------------------------------------------------------ *)
(** ** C49: checksum *)

(** The sum is that of the words of the data, modulo 2^16; it never panics. *)
Theorem sum16_value data : sum16 data = Ok (total (words data) mod 2 ^ 16)%N.
Proof. apply sum16_words. Qed.
Print Assumptions sum16_value.

(** It can be computed piecewise, split at any word boundary. *)
Theorem sum16_app a b : Nat.Even (length a) ->
  exists x y, sum16 a = Ok x /\ sum16 b = Ok y /\ sum16 (a ++ b) = Ok ((x + y) mod 2 ^ 16)%N.
Proof.
  intros E. do 2 eexists. repeat split; try apply sum16_value.
  rewrite sum16_value, (words_app (length a)), total_app by easy.
  now rewrite <- N.add_mod by easy.
Qed.
Print Assumptions sum16_app.

Lemma sum16_word pre lo hi rest : Nat.Even (length pre) ->
  sum16 (pre ++ [lo; hi] ++ rest)
  = Ok ((total (words pre) + (lo + 256 * hi) + total (words rest)) mod 2 ^ 16)%N.
Proof.
  intros E. rewrite sum16_value, (words_app (length pre)), total_app by easy.
  cbn [words total fold_right app]. fold (total (words rest)). do 2 f_equal. lia.
Qed.

(** Storing the complement of the sum in a checksum field that was zero makes
    the sum of the whole 0xffff, and no other value of the field does.  The
    field may be at any even offset; in the MZ header it is at 18. *)
Theorem sum16_patch pre rest s lo hi :
  Nat.Even (length pre) -> (lo < 256)%N -> (hi < 256)%N ->
  sum16 (pre ++ [0; 0]%N ++ rest) = Ok s ->
  (sum16 (pre ++ [lo; hi] ++ rest) = Ok 0xffff%N <-> (lo + 256 * hi = 0xffff - s)%N).
Proof.
  intros E L H S. rewrite sum16_word in S by easy. rewrite sum16_word by easy.
  assert (S' : forall x y : N, Ok x = Ok y -> x = y) by congruence. apply S' in S. clear S'.
  replace (total (words pre) + (0 + 256 * 0) + total (words rest))%N
    with (total (words pre) + total (words rest))%N in S by lia.
  replace (total (words pre) + (lo + 256 * hi) + total (words rest))%N
    with ((lo + 256 * hi) + (total (words pre) + total (words rest)))%N by lia.
  set (t := (total (words pre) + total (words rest))%N) in *. clearbody t.
  change (2 ^ 16)%N with 65536%N in *.
  rewrite <- N.add_mod_idemp_r, S by easy.
  assert (B : (s < 65536)%N) by (subst s; now apply N.mod_upper_bound).
  set (v := (lo + 256 * hi)%N). assert (V : (v < 65536)%N) by (unfold v; lia). clearbody v.
  split.
  - intros Q. injection Q as Q.
    destruct (N.lt_ge_cases (v + s) 65536) as [C|C].
    + rewrite N.mod_small in Q by easy. lia.
    + replace (v + s)%N with ((v + s - 65536) + 1 * 65536)%N in Q by lia.
      rewrite N.mod_add, N.mod_small in Q by lia. lia.
  - intros ->. f_equal. replace (0xffff - s + s)%N with 0xffff%N by lia. easy.
Qed.
Print Assumptions sum16_patch.

(** Any change confined to one word is noticed. *)
Theorem sum16_detects pre rest lo hi lo' hi' :
  Nat.Even (length pre) -> bytes [lo; hi; lo'; hi'] ->
  sum16 (pre ++ [lo; hi] ++ rest) = sum16 (pre ++ [lo'; hi'] ++ rest) ->
  [lo; hi] = [lo'; hi'].
Proof.
  intros E B S. rewrite !sum16_word in S by easy.
  assert (S' : forall x y : N, Ok x = Ok y -> x = y) by congruence. apply S' in S. clear S'.
  unfold bytes in B. rewrite !Forall_cons_iff in B. unfold is_byte in B.
  destruct B as (L & H & L' & H' & _).
  set (t := (total (words pre) + total (words rest))%N).
  replace (total (words pre) + (lo + 256 * hi) + total (words rest))%N
    with (t + (lo + 256 * hi))%N in S by (unfold t; lia).
  replace (total (words pre) + (lo' + 256 * hi') + total (words rest))%N
    with (t + (lo' + 256 * hi'))%N in S by (unfold t; lia).
  clearbody t. change (2 ^ 16)%N with 65536%N in S.
  assert (G : (lo + 256 * hi = lo' + 256 * hi')%N).
  { pose proof (N.div_mod (t + (lo + 256 * hi)) 65536 ltac:(easy)).
    pose proof (N.div_mod (t + (lo' + 256 * hi')) 65536 ltac:(easy)).
    rewrite S in *. set (q := ((t + (lo + 256 * hi)) / 65536)%N) in *.
    set (q' := ((t + (lo' + 256 * hi')) / 65536)%N) in *.
    set (r := ((t + (lo' + 256 * hi')) mod 65536)%N) in *.
    assert (q = q') by lia. subst q. lia. }
  assert (lo = lo' /\ hi = hi') as [-> ->] by lia. easy.
Qed.
Print Assumptions sum16_detects.

(** The embedded stub: its checksum field is at 18 and makes the sum 0xffff. *)
Example stub_checksum :
  length STUB_X86 = 128 /\ bytes STUB_X86 /\ sum16 STUB_X86 = Ok 0xffff%N
  /\ sum16 (firstn 18 STUB_X86 ++ [0; 0]%N ++ skipn 20 STUB_X86) = Ok 0x5897%N
  /\ (0x68 + 256 * 0xa7 = 0xffff - 0x5897)%N.
Proof.
  repeat split; try easy. apply Forall_forall. intros x I.
  assert (A : forallb (fun b => N.ltb b 256) STUB_X86 = true) by reflexivity.
  rewrite forallb_forall in A. apply N.ltb_lt, A, I.
Qed.

(* ------------------------------------------------------------------ *)
(** ** C50: the MZ header and its byte form *)

(** The structures with their tables and sizes. *)
Inductive mz : decl -> table -> nat -> Prop :=
| mz_H : mz Header mz_header 28
| mz_E : mz HeaderExt mz_ext 36
| mz_R : mz Relocation mz_relocation 4.

Lemma mz_described h d t n : mz d t n ->
  described h d = t /\ tiles 0 t n /\ size_of (decl_ty h d) = n /\ 1 <= align_of (decl_ty h d)
  /\ NoDup (map fst (members d)) /\ Forall plain (map snd (members d)).
Proof.
  intros M. assert (A : forall (P : decl -> table -> nat -> Prop),
    P Header mz_header 28 -> P HeaderExt mz_ext 36 -> P Relocation mz_relocation 4 -> P d t n)
    by (intros; now destruct M).
  split; [pattern d, t, n; apply A; reflexivity|].
  split; [pattern d, t, n; apply A; repeat split|].
  split; [pattern d, t, n; apply A; reflexivity|].
  split; [pattern d, t, n; apply A; cbn; lia|].
  split; pattern d, t, n; apply A; cbn [Header HeaderExt Relocation members map fst snd];
    repeat constructor; cbn; intuition discriminate.
Qed.

Lemma bytes_align h d n : 1 <= align_of (decl_ty h d) ->
  (align_of (Array n (Prim 1 1)) <=? align_of (decl_ty h d)) = true.
Proof. intros A. now apply Nat.leb_le. Qed.

Lemma tiles_in t : forall o n e, tiles o t n -> In e t -> start e + len e <= n.
Proof.
  assert (G : forall t o n, tiles o t n -> o <= n).
  { clear. induction t as [|e t IH]; intros o n T; cbn in T; [lia|].
    destruct T as [_ T]. apply IH in T. lia. }
  induction t as [|e0 t IH]; intros o n e T I; [easy|]. destruct T as [S T].
  destruct I as [ -> | I ]; [|now apply IH with (o + len e0)].
  apply G in T. lia.
Qed.

(** Every byte string of the right size is read and written back unchanged;
    each field holds the bytes at its place, and each number is the
    little-endian value of those bytes, on every host. *)
Theorem mz_read h d t n data : mz d t n -> length data = n -> bytes data ->
  exists o, from_bytes h d data = Ok o
  /\ as_bytes h d n o = Ok (Some data)
  /\ forall e, In e t ->
     let bs := slice data (start e) (start e + len e) in
     member h d (name e) o = Some (map Some bs)
     /\ (numeric e = true -> number h d (name e) o = Some (Z.of_N (little bs))).
Proof.
  intros M L B. destruct (mz_described h d t n M) as (D & T & S & A & ND & P).
  exists (map Some data). unfold from_bytes, as_bytes.
  rewrite !bytes_align, L, S, Nat.eqb_refl, init_some by easy. cbv iota.
  split; [easy|]. split; [easy|]. intros e I.
  destruct (In_nth_error _ _ I) as [i E]. rewrite <- D in E.
  pose proof (tiles_in _ _ _ _ T I) as Bd.
  destruct (member_slice h d e i (map Some data) ND E) as [_ R].
  split. { rewrite R, slice_map. easy. }
  intros NU. destruct (described_nth _ _ _ _ _ E) as (_ & _ & m & Nm & NE & LE).
  rewrite NE in NU.
  assert (PM : plain m).
  { rewrite Forall_forall in P. apply P. change m with (snd (name e, m)).
    apply in_map. now apply nth_error_In with i. }
  destruct m as [k a| | | |]; try easy. cbn in PM.
  apply number_slice with i k a; try easy; try lia. rewrite LE, le_size. easy.
Qed.
Print Assumptions mz_read.

(** Every header value has a byte form, in which each field is encoded at its
    place; reading the byte form gives the header back with the same values, on
    every host. *)
Theorem mz_write h d t n cs : mz d t n -> Forall2 fits t cs ->
  exists o data, construct h d cs = Some o
  /\ as_bytes h d n o = Ok (Some data)
  /\ length data = n
  /\ from_bytes h d data = Ok o
  /\ Forall2 (fun e c => encodes e c (slice data (start e) (start e + len e))) t cs
  /\ Forall2 (fun e c => match c with
                         | Num z => number h d (name e) o = Some z
                         | Raw l => member h d (name e) o = Some (map Some l)
                         end) t cs.
Proof.
  intros M F. destruct (mz_described h d t n M) as (D & T & S & A & ND & P).
  assert (F' : Forall2 fits (described_from h 0 (members d)) cs) by (now rewrite <- D in F).
  destruct (member_objects_bytes h (members d) cs 0 P F') as (ls & E & SZ & LN & EN & BS).
  fold (described h d) in LN, EN. rewrite D in LN, EN.
  set (data := List.concat ls).
  assert (BD : bytes data).
  { unfold data. clear - BS. induction BS as [|l ls B BS IH]; [constructor|].
    cbn. apply Forall_app. easy. }
  assert (O : construct h d cs = Some (map Some data)).
  { unfold construct. rewrite E. f_equal. unfold build. rewrite S.
    cbn [decl_ty offsets_of].
    assert (T' : tiles 0 (described_from h 0 (members d)) n) by (now rewrite <- D in T).
    destruct (tiles_sums h (members d) 0 n T') as [OF SN]. rewrite OF.
    pose proof (fill_tight (map (fun m => ty_of h (snd m)) (members d))
      (map (map Some) ls) [] (repeat None n)) as G. cbn [length app] in G. rewrite G.
    - unfold data. now rewrite concat_map.
    - clear - SZ. induction SZ as [|l t ls ts L SZ IH]; [constructor|]. cbn.
      constructor; [now rewrite map_length|easy].
    - rewrite repeat_length. lia. }
  assert (LD : length data = n).
  { unfold data. clear - LN T.
    assert (G : forall t (ls : list (list N)) o,
      Forall2 (fun e l => length l = len e) t ls -> tiles o t n -> o + length (List.concat ls) = n).
    { clear. induction t as [|e t IH]; intros ls o F T; inversion F; subst; cbn in *; [lia|].
      destruct T as [_ T]. eapply IH in T; [|eassumption]. rewrite app_length. lia. }
    exact (G t ls 0 LN T). }
  pose proof (concat_slices t ls [] n T LN) as SL. cbn [app] in SL. fold data in SL.
  exists (map Some data), data.
  unfold from_bytes, as_bytes. rewrite !bytes_align, LD, S, Nat.eqb_refl, init_some by easy.
  cbv iota. do 4 (split; [easy|]).
  assert (EC : Forall2 (fun e c => encodes e c (slice data (start e) (start e + len e))) t cs).
  { clear - SL EN F. clearbody data. revert ls SL EN. induction F as [|e c t cs FC F IH]; intros ls SL EN; [constructor|].
    inversion SL as [|e' l t' ls' S1 SL']; subst. cbn [combine] in EN.
    inversion EN as [|? ? ? ? E1 EN']; subst. constructor; [easy|now apply IH with ls']. }
  split; [easy|].
  destruct (mz_read h d t n data M LD BD) as (o & R1 & _ & R3).
  unfold from_bytes in R1. rewrite !bytes_align, LD, S, Nat.eqb_refl in R1 by easy.
  cbv iota in R1. injection R1 as <-.
  assert (G : forall t' cs', incl t' t -> Forall2 fits t' cs' ->
    Forall2 (fun e c => encodes e c (slice data (start e) (start e + len e))) t' cs' ->
    Forall2 (fun e c => match c with
                         | Num z => number h d (name e) (map Some data) = Some z
                         | Raw l => member h d (name e) (map Some data) = Some (map Some l)
                         end) t' cs').
  { intros t' cs' I F1 E1. revert I E1.
    induction F1 as [|e c t' cs' FC F1 IH]; intros I E1; [constructor|].
    inversion E1 as [|? ? ? ? EE E1']; subst.
    constructor; [|apply IH; [intros x X; apply I; now right|easy]].
    destruct (R3 e (I e (or_introl eq_refl))) as [RM RN].
    destruct c as [z|l]; cbn in FC, EE.
    - destruct FC as [NU [Z0 Z1]]. rewrite (RN NU).
      rewrite (stored_unique _ _ _ _ _ EE (host_stored LittleFirst (len e) (Z.to_N z))).
      cbn [host_bytes]. rewrite <- of_le_little, of_le_le, N.mod_small; [f_equal; lia|].
      apply N2Z.inj_lt. rewrite N2Z.inj_pow, nat_N_Z, Z2N.id by easy. exact Z1.
    - rewrite RM, EE. easy. }
  apply G; [apply incl_refl|easy|easy].
Qed.
Print Assumptions mz_write.

(** The header of the stub, on a big-endian host with byte aligned integers. *)
Example mz_example :
  let h := {| order_ := BigFirst; al2 := 1; al4 := 1; al8 := 1 |} in
  let cs := [Raw MAGIC; Num 128; Num 1; Num 0; Num 4; Num 0; Num 0xffff; Num 0; Num 0x80;
             Num 0xa768; Num 0; Num 0; Num 0x40; Num 0]%Z in
  Forall2 fits mz_header cs
  /\ construct h Header cs = Some (map Some (firstn 28 STUB_X86)).
Proof.
  cbn zeta. split; [|vm_compute; reflexivity].
  repeat constructor; cbn; easy.
Qed.

(* ------------------------------------------------------------------ *)
(** ** C68: the layout of the structures *)

(** The structure has exactly the fields of the table at their offsets (a
    member without size is no field), nothing in between or after them, and the
    given alignment. *)
Definition laid_out (h : host) (d : decl) (base : nat) (t : table) (size align : nat) : Prop :=
  filter (fun e => negb (len e =? 0))
    (map (fun e => {| name := name e; start := base + start e; len := len e;
                      numeric := numeric e |}) (described h d)) = t
  /\ tiles base t (base + size)
  /\ size_of (decl_ty h d) = size /\ align_of (decl_ty h d) = align.

(** The structures made of aligned integers have the specified layout whatever
    the host.  The second part of the optional header follows the first. *)
Theorem fixed_layout h :
  laid_out h Header 0 mz_header 28 2
  /\ laid_out h HeaderExt 0 mz_ext 36 4
  /\ laid_out h Relocation 0 mz_relocation 4 2
  /\ laid_out h PeHeader 0 pe_header 20 4
  /\ laid_out h (OptionalHeader Pe) 0 pe32_standard 28 4
  /\ laid_out h (OptionalHeaderExt Pe) 28 pe32_windows 68 4
  /\ laid_out h (OptionalHeader Pe32P) 0 pe_standard 24 4
  /\ laid_out h (OptionalHeaderExt Pe32P) 24 pe32p_windows 88 8
  /\ laid_out h DataDirectory 0 pe_directory 8 4
  /\ laid_out h SectionHeader 0 pe_section 40 4
  /\ 28 + start (nth 4 mz_ext (num "" 0 0)) = PE_OFFSET.
Proof. repeat split. Qed.
Print Assumptions fixed_layout.

(** The ELF structures use the integers of the host: they have the specified
    layout on every host where the alignment of an integer divides its size. *)
Definition usual (h : host) : Prop :=
  Nat.divide (al2 h) 2 /\ Nat.divide (al4 h) 4 /\ Nat.divide (al8 h) 8.

Lemma divides (a n : nat) : 0 < n -> Nat.divide a n -> In a (seq 1 n).
Proof.
  intros P D. apply in_seq. apply Nat.divide_pos_le in D as L; [|easy].
  assert (a <> 0) by (intros ->; destruct D; lia). lia.
Qed.

Lemma usual_cases h (P : host -> Prop) :
  (forall o a2 a4 a8, In a2 [1; 2] -> In a4 [1; 2; 4] -> In a8 [1; 2; 4; 8] ->
     P {| order_ := o; al2 := a2; al4 := a4; al8 := a8 |}) ->
  usual h -> P h.
Proof.
  intros G (D2 & D4 & D8). destruct h as [o a2 a4 a8]. cbn in *.
  pose proof (divides _ 2 ltac:(lia) D2) as I2. pose proof (divides _ 4 ltac:(lia) D4) as I4.
  pose proof (divides _ 8 ltac:(lia) D8) as I8. cbn in I2, I4, I8.
  apply G; cbn; [tauto| |].
  - destruct D4 as [k D4]. intuition; subst; lia.
  - destruct D8 as [k D8]. intuition; subst; lia.
Qed.

Theorem elf_layout h : usual h ->
  laid_out h Ident 0 elf_ident 16 1
  /\ laid_out h (Ehdr h 4) 0 elf32_ehdr 52 4 /\ laid_out h (Ehdr h 8) 0 elf64_ehdr 64 8
  /\ laid_out h (Shdr 4) 0 elf32_shdr 40 4 /\ laid_out h (Shdr 8) 0 elf64_shdr 64 8
  /\ laid_out h Phdr32 0 elf32_phdr 32 4 /\ laid_out h Phdr64 0 elf64_phdr 56 8
  /\ laid_out h Sym32 0 elf32_sym 16 4 /\ laid_out h Sym64 0 elf64_sym 24 8
  /\ laid_out h (Dyn 4) 0 (elf_dyn 4) 8 4 /\ laid_out h (Dyn 8) 0 (elf_dyn 8) 16 8
  /\ laid_out h (Rel 4) 0 (elf_rel 4) 8 4 /\ laid_out h (Rel 8) 0 (elf_rel 8) 16 8
  /\ laid_out h (Rela 4) 0 (elf_rela 4) 12 4 /\ laid_out h (Rela 8) 0 (elf_rela 8) 24 8.
Proof.
  intros U. pattern h. apply usual_cases; [|easy]. clear h U. intros o a2 a4 a8 I2 I4 I8. cbn in I2, I4, I8.
  destruct I2 as [<-|[<-|[]]]; destruct I4 as [<-|[<-|[<-|[]]]];
    destruct I8 as [<-|[<-|[<-|[<-|[]]]]]; repeat split.
Qed.
Print Assumptions elf_layout.

(** Whether a number is signed decides what its bytes mean: in all structures
    but [Dyn] exactly the fields that are signed in the specification are. *)
Theorem elf_signs_partial h d s sg n :
  In d ([Ident; Phdr32; Phdr64; Sym32; Sym64]
        ++ flat_map (fun w => [Ehdr h w; Shdr w; Rel w; Rela w]) [4; 8]) ->
  In (s, Int sg n) (members d) -> (sg = true <-> In s elf_signed).
Proof.
  intros D M.
  assert (X : sg = if in_dec string_dec s elf_signed then true else false).
  { repeat (destruct D as [<-|D]; [cbn in M;
      repeat (destruct M as [M|M]; [try discriminate M; injection M as <- <- <-; reflexivity|]); destruct M|]).
    destruct D. }
  rewrite X. destruct (in_dec string_dec s elf_signed); split; easy.
Qed.
Print Assumptions elf_signs_partial.

(** The tag of a dynamic section is not: a negative tag is read as a large
    positive one.  Its value is unsigned, as it should be. *)
Theorem elf_signs_refuted n :
  In "d_tag"%string elf_signed /\ In ("d_tag"%string, Int false n) (members (Dyn n))
  /\ ~ In "d_val"%string elf_signed /\ In ("d_val"%string, Int false n) (members (Dyn n)).
Proof.
  split; [left; reflexivity|]. split; [left; reflexivity|]. split; [|right; left; reflexivity].
  intros [E|[E|[]]]; discriminate E.
Qed.
Print Assumptions elf_signs_refuted.

(** A 32-bit x86 host, where [u64] is aligned to 4 bytes only. *)
Example elf_example : usual {| order_ := LittleFirst; al2 := 2; al4 := 4; al8 := 4 |}.
Proof. repeat split; [now exists 1|now exists 1|now exists 2]. Qed.

(* ------------------------------------------------------------------ *)
(** ** C70: PE constants *)

(** The PE specification gives the optional header of PE32 the magic 0x10b and
    that of PE32+ the magic 0x20b, and numbers the EFI subsystems from 10.  The
    constants exported for them are different: code that decides on the magic
    cannot tell the two formats apart. *)
Theorem pe_constants_refuted :
  PE_MAGIC_OH32 = PE_MAGIC_OH32P /\ PE_MAGIC_OH32P <> 0x20b%N
  /\ [SUBSYSTEM_EFI_APPLICATION; SUBSYSTEM_EFI_BOOT_SERVICE_DRIVER;
      SUBSYSTEM_EFI_RUNTIME_DRIVER; SUBSYSTEM_EFI_ROM; SUBSYSTEM_XBOX;
      SUBSYSTEM_WINDOWS_BOOT_APPLICATION] <> [10; 11; 12; 13; 14; 16]%N.
Proof. repeat split; discriminate. Qed.
Print Assumptions pe_constants_refuted.
