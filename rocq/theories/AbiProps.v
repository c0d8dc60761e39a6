(** C76-C78: platform ABIs, error numbers and ELF numbers. *)
From Coq Require Import String.
From Coq Require Import List.
From Verif Require Import Base FfiSpec LayModel FfiModel FfiProofs AbiSpec AbiModel AbiProofs.

(* ------------------------------------------------------------------ *)
(** ** C76: structures of a foreign platform *)

(** Any declaration made of the symbols of a platform's module, arrays and
    nested structures has, on every host, the size and alignment C gives it on
    that platform. *)
Theorem abi_layout_is_c p h d s a :
  lays p d s a <-> size_of (declare (abi p h) d) = s /\ align_of (declare (abi p h) d) = a.
Proof.
  assert (F : faithful p (abi p h)) by (intros t; apply abi_layout).
  destruct (lays_of p _ F d) as (L & _). split.
  - intros H. exact (lays_unique _ _ _ _ _ _ L H).
  - intros (<- & <-). exact L.
Qed.
Print Assumptions abi_layout_is_c.

(** And its fields are where C puts them. *)
Theorem abi_offsets_are_c p h ds offs :
  (exists last_ a, places p 0 ds offs last_ a) <-> offsets_of (declare (abi p h) (Record ds)) = offs.
Proof.
  assert (F : faithful p (abi p h)) by (intros t; apply abi_layout).
  pose proof (record_places p _ F ds) as P. split.
  - intros (l & a & H). exact (proj1 (places_unique _ _ _ _ _ _ _ _ _ P H)).
  - intros <-. eauto.
Qed.
Print Assumptions abi_offsets_are_c.

(** A process descriptor of a core dump: [struct { int pid; long long start;
    char name[3]; struct { short s; double d; } in[2]; void *next; }]. *)
Definition dump : ctype :=
  Record [Scalar I32; Scalar U64; Many 3 (Scalar U8); Many 2 (Record [Scalar I16; Scalar F64]); Scalar Ptr].
Definition host32 : machine :=
  {| prim_align := fun _ n => Nat.min n 4; address := 4; byte_order := LittleFirst |}.
Definition host64 : machine :=
  {| prim_align := fun _ n => n; address := 8; byte_order := LittleFirst |}.
Example dump_layouts :
  (size_of (declare (abi X86_64 host32) dump), offsets_of (declare (abi X86_64 host32) dump))
    = (64, [0; 8; 16; 24; 56])
  /\ (size_of (declare (abi X86 host64) dump), offsets_of (declare (abi X86 host64) dump))
    = (44, [0; 4; 12; 16; 40]).
Proof. split; reflexivity. Qed.

(** The host makes no difference. *)
Theorem abi_layout_host_independent p h h' d :
  size_of (declare (abi p h) d) = size_of (declare (abi p h') d)
  /\ align_of (declare (abi p h) d) = align_of (declare (abi p h') d).
Proof. apply abi_layout_is_c. now apply abi_layout_is_c with (h := h'). Qed.
Print Assumptions abi_layout_host_independent.

(** A machine of platform [p] is one whose primitives have their C layout. *)
Definition machine_of (p : platform) (h : machine) : Prop :=
  address h = csize p Pointer /\
  forall k, prim_align h (match k with Float | Double => FloatClass | Pointer => PtrClass | _ => IntClass end)
       (csize p k) = calign p k.

(** There the primitives of Rust may be used instead: same size, alignment and
    offsets. *)
Theorem native_is_target p h d : machine_of p h ->
  size_of (declare (native h) d) = size_of (declare (abi p h) d)
  /\ align_of (declare (native h) d) = align_of (declare (abi p h) d)
  /\ forall ds, d = Record ds ->
       offsets_of (declare (native h) d) = offsets_of (declare (abi p h) d).
Proof.
  intros (A & P). pose proof (native_faithful p h A P) as F.
  assert (F' : faithful p (abi p h)) by (intros t; apply abi_layout).
  destruct (lays_of p _ F d) as (L & _). destruct (lays_of p _ F' d) as (L' & _).
  destruct (lays_unique _ _ _ _ _ _ L L') as (-> & ->). do 2 (split; [reflexivity|]).
  intros ds ->.
  pose proof (record_places p _ F ds) as R. pose proof (record_places p _ F' ds) as R'.
  exact (proj1 (places_unique _ _ _ _ _ _ _ _ _ R R')).
Qed.
Print Assumptions native_is_target.
Example host64_machine : machine_of X86_64 host64 /\ machine_of Aarch64 host64.
Proof. split; (split; [reflexivity|]); intros []; reflexivity. Qed.
(** Elsewhere they may not: the reason the module exists. *)
Example host32_native_differs :
  size_of (declare (native host32) dump) = 44 /\ offsets_of (declare (native host32) dump) = [0; 4; 12; 16; 40].
Proof. split; reflexivity. Qed.

(** An address, a pointer and a [Usize] are interchangeable in memory. *)
Theorem abi_addr_ptr_usize p h :
  size_of (abi p h Addr) = size_of (abi p h Usize) /\ align_of (abi p h Addr) = align_of (abi p h Usize)
  /\ size_of (abi p h Ptr) = size_of (abi p h Usize) /\ align_of (abi p h Ptr) = align_of (abi p h Usize).
Proof.
  destruct (abi_layout p h Addr) as (-> & ->), (abi_layout p h Usize) as (-> & ->), (abi_layout p h Ptr) as (-> & ->).
  destruct p; repeat split.
Qed.
Print Assumptions abi_addr_ptr_usize.

(* ------------------------------------------------------------------ *)
(** ** C77: error numbers *)

Local Open Scope string_scope.

Lemma errno_tables n v : In (n, v) linux_errno <-> lookup n errno = Some v.
Proof.
  split.
  - apply table_eqb_ok. vm_compute. reflexivity.
  - intros H. apply lookup_in in H. apply lookup_in. revert n v H. apply table_eqb_ok. vm_compute. reflexivity.
Qed.

Lemma errno_range n v : In (n, v) linux_errno -> (1 <= v <= 133)%N.
Proof.
  assert (H : forallb (fun '(_, v) => (1 <=? v)%N && (v <=? 133)%N) linux_errno = true) by reflexivity.
  rewrite forallb_forall in H. intros I. specialize (H _ I). cbn in H.
  apply andb_prop in H as (A & B). apply N.leb_le in A, B. lia.
Qed.

Lemma in_range_u16 v : (v <= 133)%N -> in_range (int u16) (Z.of_N v).
Proof. intros H. unfold in_range. cbn -[Z.pow Z.of_N]. change (2 ^ (8 * 2))%Z with 65536%Z. lia. Qed.

Lemma pattern_u16 v : (v <= 133)%N -> pattern (int u16) (Z.of_N v) = v.
Proof.
  intros H. unfold pattern. cbn -[Z.pow Z.of_N Z.modulo]. change (2 ^ (8 * 2))%Z with 65536%Z.
  rewrite Z.mod_small by lia. apply N2Z.id.
Qed.

(** Every constant Linux defines is there for every platform, on every host:
    the two little-endian bytes of the number of Linux, which the host reads
    back as that number.  Its value is one the kernel can return. *)
Theorem errno_is_linux h p n v : In (n, v) linux_errno ->
  exists bs, errno_of h p n = Some (map Some bs) /\ stored LittleFirst 2 v bs
    /\ value (byte_order h) LittleEndian u16 (map Some bs) = Some (Z.of_N v)
    /\ (1 <= v <= 4095)%N.
Proof.
  intros I. pose proof (errno_range _ _ I) as (R1 & R2). apply errno_tables in I.
  unfold errno_of. rewrite I. unfold num_u16. rewrite u16_size.
  rewrite make_image by (cbn; lia). change (2 - width (int u16)) with 0. cbn [repeat].
  exists (image (byte_order h) LittleEndian u16 (Z.of_N v)). rewrite app_nil_r.
  split; [reflexivity|]. split; [|split; [|lia]].
  - unfold image. rewrite pattern_u16 by easy. apply host_stored.
  - rewrite <- (app_nil_r (map Some _)). apply value_make; [cbn; lia|now apply in_range_u16|easy].
Qed.
Print Assumptions errno_is_linux.
Example errno_eagain h : errno_of h X86 "EWOULDBLOCK" = Some [Some 11%N; Some 0%N]
  /\ In ("EWOULDBLOCK", 11%N) linux_errno.
Proof.
  split; [|apply lookup_in; reflexivity].
  unfold errno_of, num_u16. cbn -[make abi]. rewrite u16_size. destruct h as [? ? []]; reflexivity.
Qed.

(** There are no others. *)
Theorem errno_only_linux h p n m : errno_of h p n = Some m -> exists v, In (n, v) linux_errno.
Proof.
  unfold errno_of. destruct (lookup n errno) eqn:E; [|discriminate]. intros _. exists n0. now apply errno_tables.
Qed.
Print Assumptions errno_only_linux.

(** The native constants hold the same number in the byte order of the host; on
    little-endian hosts they are the same bytes. *)
Theorem errno_native_is_linux h n v : In (n, v) linux_errno ->
  exists bs, errno_native h n = Some (map Some bs) /\ stored (byte_order h) 2 v bs
    /\ (byte_order h = LittleFirst -> forall p, errno_of h p n = errno_native h n).
Proof.
  intros I. pose proof (errno_range _ _ I) as (R1 & R2). pose proof (proj1 (errno_tables _ _) I) as L.
  unfold errno_native, errno_of. rewrite L. unfold num_u16_native, num_u16.
  change (size_of (native h U16)) with 2.
  rewrite make_image by (cbn; lia). change (2 - width (int u16)) with 0. cbn [repeat].
  exists (image (byte_order h) Native u16 (Z.of_N v)). rewrite app_nil_r.
  split; [reflexivity|]. split.
  - unfold image. rewrite pattern_u16 by easy. apply host_stored.
  - intros E p. rewrite u16_size, make_image by (cbn; lia). change (2 - width (int u16)) with 0. cbn [repeat].
    rewrite app_nil_r. unfold image. cbn [declared]. now rewrite E.
Qed.
Print Assumptions errno_native_is_linux.

(** Two names share a number only where Linux says so. *)
Definition errno_aliases : list (string * string) :=
  [("EAGAIN", "EWOULDBLOCK"); ("EDEADLK", "EDEADLOCK")].
Theorem errno_distinct h p a b m : errno_of h p a = Some m -> errno_of h p b = Some m ->
  a = b \/ In (a, b) errno_aliases \/ In (b, a) errno_aliases.
Proof.
  intros A B. destruct (errno_only_linux _ _ _ _ A) as (v & Iv), (errno_only_linux _ _ _ _ B) as (w & Iw).
  assert (E : v = w).
  { destruct (errno_is_linux h p _ _ Iv) as (x & X1 & _ & X2 & _).
    destruct (errno_is_linux h p _ _ Iw) as (y & Y1 & _ & Y2 & _). rewrite A in X1. rewrite B in Y1.
    injection X1 as ->. injection Y1 as Y1. rewrite Y1 in X2. rewrite X2 in Y2. injection Y2. lia. }
  subst w. clear A B.
  assert (H : forallb (fun '(a, v) => forallb (fun '(b, w) =>
      negb (v =? w)%N || String.eqb a b
      || existsb (fun '(x, y) => (String.eqb x a && String.eqb y b) || (String.eqb x b && String.eqb y a))
          errno_aliases) linux_errno) linux_errno = true) by (vm_compute; reflexivity).
  rewrite forallb_forall in H. specialize (H _ Iv). cbn beta iota in H.
  rewrite forallb_forall in H. specialize (H _ Iw). cbn beta iota in H.
  rewrite N.eqb_refl in H. cbn [negb orb] in H. apply orb_prop in H as [H|H].
  - left. now apply String.eqb_eq.
  - right. apply existsb_exists in H as ((x, y) & I & H).
    apply orb_prop in H as [H|H]; apply andb_prop in H as (H1 & H2);
      apply String.eqb_eq in H1, H2; subst; auto.
Qed.
Print Assumptions errno_distinct.

(* ------------------------------------------------------------------ *)
(** ** C78: ELF numbers *)

(** Five machines have the wrong number. *)
Definition elf_wrong : list string :=
  ["EM_TRIMEDIA"; "EM_QDSP6"; "EM_8051"; "EM_STXP7X"; "EM_NDS32"].

(** All other numbers are those of the ELF specification. *)
Theorem elf_numbers_partial n v : In (n, v) gabi -> ~ In n elf_wrong -> lookup n elf_constants = Some v.
Proof.
  intros I W.
  assert (H : forallb (fun '(n, v) => existsb (String.eqb n) elf_wrong
     || match lookup n elf_constants with Some w => N.eqb v w | None => false end) gabi = true)
    by (vm_compute; reflexivity).
  rewrite forallb_forall in H. specialize (H _ I). cbn beta iota in H. apply orb_prop in H as [H|H].
  - apply existsb_exists in H as (x & J & E). apply String.eqb_eq in E. now subst.
  - destruct (lookup n elf_constants); [|discriminate]. apply N.eqb_eq in H. now subst.
Qed.
Print Assumptions elf_numbers_partial.
Example elf_x86_64 : In ("EM_X86_64", 62%N) gabi /\ ~ In "EM_X86_64" elf_wrong
  /\ lookup "EM_X86_64" elf_constants = Some 62%N.
Proof.
  split; [apply lookup_in; reflexivity|]. split; [|reflexivity].
  intros H. cbn in H. repeat (destruct H as [H|H]; [discriminate|]). exact H.
Qed.

(** Each of the five is one too small. A file for one is taken for another machine: 163 is the
    TriMedia, but the constant with that value is the one of the QDSP6. *)
Theorem elf_numbers_refuted :
  (forall n, In n elf_wrong -> exists v w, In (n, v) gabi /\ lookup n elf_constants = Some w /\ v = (w + 1)%N)
  /\ (exists v, In ("EM_TRIMEDIA", v) gabi /\ lookup "EM_QDSP6" elf_constants = Some v)
  /\ lookup "EM_TRIMEDIA" elf_constants = lookup "EM_R32C" elf_constants.
Proof.
  split; [|split].
  - intros n H. cbn in H.
    repeat (destruct H as [<-|H]; [do 2 eexists; split; [apply lookup_in; reflexivity|]; split; reflexivity|]).
    contradiction.
  - eexists. split; [apply lookup_in; reflexivity|reflexivity].
  - reflexivity.
Qed.
Print Assumptions elf_numbers_refuted.

(** Machine constants with the same number. *)
Definition machine_aliases : list (string * string) :=
  [("EM_IAMCU", "EM_486"); ("EM_MIPS_RS3_LE", "EM_MIPS_RS4_BE"); ("EM_ALPHA", "EM_ALPHA_STD");
   ("EM_X86_64", "EM_AMD64"); ("EM_FRV_INTERIM", "EM_CYGNUS_FRV_INTERIM");
   (* not an alias: see [elf_numbers_refuted] *) ("EM_R32C", "EM_TRIMEDIA")].
Theorem elf_machines_distinct_partial a b v :
  prefix "EM_" a = true -> prefix "EM_" b = true ->
  lookup a elf_constants = Some v -> lookup b elf_constants = Some v ->
  a = b \/ In (a, b) machine_aliases \/ In (b, a) machine_aliases.
Proof.
  intros Pa Pb A B. apply lookup_in in A, B.
  assert (H : forallb (fun '(a, v) => negb (prefix "EM_" a) || forallb (fun '(b, w) =>
      negb (prefix "EM_" b) || negb (v =? w)%N || String.eqb a b
      || existsb (fun '(x, y) => (String.eqb x a && String.eqb y b) || (String.eqb x b && String.eqb y a))
          machine_aliases) elf_constants) elf_constants = true) by (vm_compute; reflexivity).
  rewrite forallb_forall in H. specialize (H _ A). cbn beta iota in H. rewrite Pa in H. cbn [negb orb] in H.
  rewrite forallb_forall in H. specialize (H _ B). cbn beta iota in H. rewrite Pb in H.
  rewrite N.eqb_refl in H. cbn [negb orb] in H. apply orb_prop in H as [H|H].
  - left. now apply String.eqb_eq.
  - right. apply existsb_exists in H as ((x, y) & I & H).
    apply orb_prop in H as [H|H]; apply andb_prop in H as (H1 & H2);
      apply String.eqb_eq in H1, H2; subst; auto.
Qed.
Print Assumptions elf_machines_distinct_partial.
Example elf_two_machines : lookup "EM_ARM" elf_constants = Some 40%N /\ lookup "EM_AARCH64" elf_constants = Some 183%N.
Proof. split; reflexivity. Qed.

(** One of the numbers that are not in elf.h is wrong, too: it is one too small,
    as those of the five machines before it. *)
Theorem elf_extensions_partial n v : In (n, v) extensions -> n <> "EM_ECOG1" -> lookup n elf_constants = Some v.
Proof.
  intros I W.
  assert (H : forallb (fun '(n, v) => String.eqb n "EM_ECOG1"
     || match lookup n elf_constants with Some w => N.eqb v w | None => false end) extensions = true)
    by (vm_compute; reflexivity).
  rewrite forallb_forall in H. specialize (H _ I). cbn beta iota in H. apply orb_prop in H as [H|H].
  - apply String.eqb_eq in H. contradiction.
  - destruct (lookup n elf_constants); [|discriminate]. apply N.eqb_eq in H. now subst.
Qed.
Print Assumptions elf_extensions_partial.
Theorem elf_extensions_refuted :
  In ("EM_ECOG1", 168%N) extensions /\ lookup "EM_ECOG1" elf_constants = Some 167%N /\ In ("EM_NDS32", 167%N) gabi.
Proof. split; [apply lookup_in; reflexivity|]. split; [reflexivity|]. apply lookup_in; reflexivity. Qed.
Print Assumptions elf_extensions_refuted.
(** Nearly every number is specified, by one of the two. *)
Theorem elf_unspecified n v : lookup n elf_constants = Some v ->
  (exists w, In (n, w) gabi \/ In (n, w) extensions)
  \/ In n ["EM_ALPHA"; "EM_M32C_INTERIM"; "SHN_FBSD_CACHED"; "SHT_LOGNU"; "SHT_HIGNU"; "SHT_LOSUNW";
           "PT_LOGNU"; "PT_HIGNU"; "PT_LOOPENBSD"; "PT_HIOPENBSD"].
Proof.
  intros I. apply lookup_in in I.
  assert (H : forallb (fun '(n, v) => match lookup n gabi with Some _ => true | None => false end
     || match lookup n extensions with Some _ => true | None => false end
     || existsb (String.eqb n) ["EM_ALPHA"; "EM_M32C_INTERIM"; "SHN_FBSD_CACHED"; "SHT_LOGNU"; "SHT_HIGNU"; "SHT_LOSUNW";
           "PT_LOGNU"; "PT_HIGNU"; "PT_LOOPENBSD"; "PT_HIOPENBSD"]) elf_constants = true)
    by (vm_compute; reflexivity).
  rewrite forallb_forall in H. specialize (H _ I). cbn beta iota in H.
  apply orb_prop in H as [H|H]; [apply orb_prop in H as [H|H]|].
  - destruct (lookup n gabi) eqn:E; [|discriminate]. apply lookup_in in E. eauto.
  - destruct (lookup n extensions) eqn:E; [|discriminate]. apply lookup_in in E. eauto.
  - right. apply existsb_exists in H as (x & J & E). apply String.eqb_eq in E. now subst.
Qed.
Print Assumptions elf_unspecified.

(** The bounds of the range of a vendor are the least and the greatest of its
    numbers, and all of them are for operating systems. *)
Theorem elf_vendors lo hi p os_lo os_hi : In (lo, hi, p, (os_lo, os_hi)) vendors ->
  exists a b c d, lookup os_lo elf_constants = Some a /\ lookup lo elf_constants = Some b /\
    lookup hi elf_constants = Some c /\ lookup os_hi elf_constants = Some d /\ (a <= b)%N /\ (c <= d)%N /\
    (exists n m, prefix p n = true /\ prefix p m = true /\
       lookup n elf_constants = Some b /\ lookup m elf_constants = Some c) /\
    forall n v, prefix p n = true -> lookup n elf_constants = Some v -> (b <= v <= c)%N.
Proof.
  intros I.
  set (num n := lookup n elf_constants).
  assert (H : forallb (fun '(lo, hi, p, (os_lo, os_hi)) =>
     match num os_lo, num lo, num hi, num os_hi with
     | Some a, Some b, Some c, Some d => (a <=? b)%N && (c <=? d)%N
         && existsb (fun '(n, _) => prefix p n && match num n with Some v => (v =? b)%N | None => false end) elf_constants
         && existsb (fun '(n, _) => prefix p n && match num n with Some v => (v =? c)%N | None => false end) elf_constants
         && forallb (fun '(n, v) => negb (prefix p n) || ((b <=? v)%N && (v <=? c)%N)) elf_constants
     | _, _, _, _ => false
     end) vendors = true) by (vm_compute; reflexivity).
  rewrite forallb_forall in H. specialize (H _ I). cbn beta iota in H. fold (num os_lo) (num lo) (num hi) (num os_hi).
  destruct (num os_lo) as [a|], (num lo) as [b|], (num hi) as [c|], (num os_hi) as [d|]; try discriminate.
  repeat (apply andb_prop in H as (H & ?)).
  exists a, b, c, d. repeat split; try (apply N.leb_le; assumption).
  - apply existsb_exists in H2 as ((n & ?) & _ & P). apply existsb_exists in H1 as ((m & ?) & _ & Q).
    apply andb_prop in P as (P & P'). apply andb_prop in Q as (Q & Q').
    exists n, m. fold (num n) (num m). destruct (num n), (num m); try discriminate.
    apply N.eqb_eq in P', Q'. subst. auto.
  - rewrite forallb_forall in H0. specialize (H0 _ (lookup_in _ _ _ H5)). cbn beta iota in H0.
    rewrite H4 in H0. cbn [negb orb] in H0. apply andb_prop in H0 as (X & _). now apply N.leb_le.
  - rewrite forallb_forall in H0. specialize (H0 _ (lookup_in _ _ _ H5)). cbn beta iota in H0.
    rewrite H4 in H0. cbn [negb orb] in H0. apply andb_prop in H0 as (_ & X). now apply N.leb_le.
Qed.
Print Assumptions elf_vendors.
Example elf_vendor_case : In ("SHT_LOGNU", "SHT_HIGNU", "SHT_GNU_", ("SHT_LOOS", "SHT_HIOS")) vendors
  /\ prefix "SHT_GNU_" "SHT_GNU_HASH" = true /\ lookup "SHT_GNU_HASH" elf_constants = Some 0x6ffffff6%N
  /\ lookup "SHT_LOGNU" elf_constants = Some 0x6ffffff5%N.
Proof. split; [right; left; reflexivity|]. repeat split. Qed.
