(** Properties of the choice of platform modules: C93. *)
From Coq Require Import String.
From Coq Require Import List Lia.
From Verif Require Import Base FfiSpec LayModel FfiModel AbiModel AbiProofs AbiProps PlatSpec PlatModel.
From Verif Require AbiSpec.
Import AbiSpec(platform, Aarch64, X86, X86_64, symbol, Usize, U16, Ptr, ctype, Scalar, Many, Record, linux_errno).
Local Open Scope string_scope.

(** ** [osi::ffi::abi::target] *)

(** Apart from Windows, the crate compiles, and the alias is there exactly for
    the supported architectures of UNIX systems and then names the module with
    the ABI of the platform. *)
Theorem plat_abi_target_partial t : ~ windows_msvc t ->
  (forall p, should_alias t p -> exists m, abi_target t = Names m /\ abi_named m = Some (abi p))
  /\ ((forall p, ~ should_alias t p) -> abi_target t = Absent).
Proof.
  intros W. unfold abi_target, kept, abi_uses, should_alias, supported, windows_msvc in *. cbn [filter map fst snd].
  split.
  - intros p (F & A). rewrite F, A. destruct p; cbn; rewrite ?Bool.andb_false_r; cbn; eauto.
  - intros N. pose proof (N Aarch64) as N1. pose proof (N X86) as N2. pose proof (N X86_64) as N3.
    cbn [arch_name] in *.
    destruct (String.eqb_spec (family t) "unix") as [F|F].
    + destruct (String.eqb_spec (arch t) "aarch64"); [tauto|].
      destruct (String.eqb_spec (arch t) "x86"); [tauto|].
      destruct (String.eqb_spec (arch t) "x86_64"); [tauto|]. reflexivity.
    + rewrite ?Bool.andb_false_r.
      destruct (String.eqb_spec (family t) "windows") as [G|G]; [|rewrite ?Bool.andb_false_r; reflexivity].
      destruct (String.eqb_spec (env t) "msvc") as [V|V]; [|rewrite ?Bool.andb_false_r; reflexivity].
      destruct (String.eqb_spec (arch t) "x86"); [tauto|].
      destruct (String.eqb_spec (arch t) "x86_64"); [tauto|]. reflexivity.
Qed.
Print Assumptions plat_abi_target_partial.
Definition linux_x86_64 : target := {| arch := "x86_64"; family := "unix"; env := "gnu"; libc_feature := true |}.
Example plat_abi_target_example : ~ windows_msvc linux_x86_64 /\ should_alias linux_x86_64 X86_64
  /\ abi_target linux_x86_64 = Names "x86_64_sysv".
Proof. split; [intros (H & _); discriminate|]. repeat split. Qed.

(** On Windows it does not compile: the alias names modules that do not exist. *)
Theorem plat_windows_refuted t : windows_msvc t -> abi_target t = Fails.
Proof.
  intros (F & V & A). unfold abi_target, kept, abi_uses. cbn [filter fst]. rewrite F, V.
  destruct A as [-> | ->]; reflexivity.
Qed.
Print Assumptions plat_windows_refuted.
Example plat_windows_example :
  windows_msvc {| arch := "x86_64"; family := "windows"; env := "msvc"; libc_feature := false |}.
Proof. repeat split. now right. Qed.

(** ** [sys::ffi::linux] *)

(** No module is defined twice. *)
Theorem plat_modules_unique t : NoDup (map fst (linux_modules t)).
Proof.
  unfold linux_modules, impl_platform. generalize (arch t). intros a.
  destruct (libc_feature t);
    (destruct (String.eqb_spec a "aarch64") as [->|?];
     [|destruct (String.eqb_spec a "x86") as [->|?];
       [|destruct (String.eqb_spec a "x86_64") as [->|?]]]); cbn;
    repeat (constructor; [cbn; intuition discriminate|]); constructor.
Qed.
Print Assumptions plat_modules_unique.

(** Every platform has its module whatever the target is, with its own ABI. *)
Theorem plat_modules_available t p :
  exists m, linux_module t (arch_name p) = Some m /\ abi_named (uses m) = Some (abi p)
    /\ forall crate h n, module_errno crate h m n = errno_of h p n.
Proof.
  unfold linux_module, linux_modules, impl_platform.
  destruct (libc_feature t), (String.eqb (arch t) "aarch64"), (String.eqb (arch t) "x86"), (String.eqb (arch t) "x86_64"), p;
    (eexists; split; [reflexivity|]; split; reflexivity).
Qed.
Print Assumptions plat_modules_available.

(** [target] is the module of the platform that is compiled for, and [native]
    is the same source compiled with the primitives of Rust. *)
Theorem plat_target_native t p : supported t p ->
  linux_module t "target" = linux_module t (arch_name p)
  /\ exists m n, linux_module t "target" = Some m /\ linux_module t "native" = Some n
       /\ source n = source m /\ abi_named (uses n) = Some native
       /\ (family t = "unix" -> abi_target t = Names (uses m)).
Proof.
  intros A. unfold supported in A.
  unfold linux_module, linux_modules, impl_platform, abi_target, kept, abi_uses. cbn [filter fst].
  rewrite A. destruct (libc_feature t), p; (split; [reflexivity|]); do 2 eexists;
    (repeat (split; [reflexivity|])); intros ->; cbn; rewrite ?Bool.andb_false_r; reflexivity.
Qed.
Print Assumptions plat_target_native.
Example plat_target_native_example : supported linux_x86_64 X86_64. Proof. reflexivity. Qed.

(** There is neither for other targets ... *)
Theorem plat_unsupported_partial t : unsupported t ->
  linux_module t "target" = None /\ linux_module t "native" = None.
Proof.
  intros N. pose proof (N Aarch64) as N1. pose proof (N X86) as N2. pose proof (N X86_64) as N3.
  unfold supported in *. cbn [arch_name] in *.
  unfold linux_module, linux_modules, impl_platform.
  rewrite ?(proj2 (String.eqb_neq _ _) N1), ?(proj2 (String.eqb_neq _ _) N2), ?(proj2 (String.eqb_neq _ _) N3).
  destruct (libc_feature t); split; reflexivity.
Qed.
Print Assumptions plat_unsupported_partial.

(** ... although [native] is documented to be [libc] then, if the feature is on. *)
Theorem plat_libc_fallback_refuted : exists t m, unsupported t /\ libc_feature t = true
  /\ linux_module t "libc" = Some m /\ linux_module t "native" = None.
Proof.
  exists {| arch := "riscv64"; family := "unix"; env := "gnu"; libc_feature := true |}.
  eexists. split; [intros []; discriminate|]. repeat split.
Qed.
Print Assumptions plat_libc_fallback_refuted.

(** [libc] is there exactly with the feature. *)
Theorem plat_libc_available t :
  (exists m, linux_module t "libc" = Some m /\ abi_named (uses m) = Some libc_abi) <-> libc_feature t = true.
Proof.
  unfold linux_module, linux_modules, impl_platform.
  destruct (libc_feature t), (String.eqb (arch t) "aarch64"), (String.eqb (arch t) "x86"), (String.eqb (arch t) "x86_64");
    cbn; (split; [intros (m & X & _); congruence|intros E; try discriminate; eauto]).
Qed.
Print Assumptions plat_libc_available.

(** ** The three agree *)

Lemma libc_abi_native h s : libc_abi h s = native h s.
Proof. destruct s; reflexivity. Qed.

Lemma declare_ext f g : (forall s, f s = g s) -> forall d, declare f d = declare g d.
Proof.
  intros E. fix IH 1. intros [s|n d|ds]; cbn [declare].
  - apply E.
  - now rewrite IH.
  - f_equal. induction ds as [|d ds IHds]; [reflexivity|]. cbn [map]. now rewrite IH, IHds.
Qed.

(** Two platform modules lay out every C declaration alike. *)
Definition same_layout (h : machine) (m n : platform_module) : Prop :=
  exists f g, abi_named (uses m) = Some f /\ abi_named (uses n) = Some g /\
  forall d, size_of (declare (f h) d) = size_of (declare (g h) d)
    /\ align_of (declare (f h) d) = align_of (declare (g h) d)
    /\ forall ds, d = Record ds -> offsets_of (declare (f h) d) = offsets_of (declare (g h) d).

(** The crate libc has the numbers of Linux. *)
Definition crate_is_linux (crate : string -> option Z) : Prop :=
  forall n v, In (n, v) linux_errno -> crate n = Some (Z.of_N v).

Lemma libc_const_linux crate n v : crate_is_linux crate -> In (n, v) linux_errno ->
  libc_const crate n libc_errno = Some (Z.of_N v).
Proof.
  intros C I.
  assert (H : forallb (fun '(n, v) => (v <? 65536)%N &&
     match find (fun x => String.eqb (fst x) n) libc_errno with Some (_, c) => String.eqb c n | None => false end)%bool
     linux_errno = true) by (vm_compute; reflexivity).
  rewrite forallb_forall in H. specialize (H _ I). cbn beta iota in H.
  apply Bool.andb_true_iff in H. destruct H as (B & F). apply N.ltb_lt in B.
  specialize (C _ _ I). revert F. generalize libc_errno. intros l. induction l as [|(a, c) l IH]; [discriminate|].
  cbn [find fst libc_const]. destruct (String.eqb a n); [|exact IH].
  intros E. apply String.eqb_eq in E. subst c. rewrite C. now rewrite Z.mod_small by lia.
Qed.

(** Compiled for a supported platform and running on a machine of it, with its
    byte order, [target], [native] and [libc] may be used for each other: every
    declaration has the same layout and every error number is the same bytes. *)
Theorem plat_interchangeable_partial t p h crate : supported t p -> libc_feature t = true ->
  machine_of p h -> byte_order h = LittleFirst -> crate_is_linux crate ->
  exists m n c, linux_module t "target" = Some m /\ linux_module t "native" = Some n
    /\ linux_module t "libc" = Some c
    /\ same_layout h n m /\ same_layout h n c
    /\ forall name v, In (name, v) linux_errno ->
         exists bs, module_errno crate h m name = Some bs /\ module_errno crate h n name = Some bs
           /\ module_errno crate h c name = Some bs.
Proof.
  intros A L M B C. unfold supported in A.
  unfold linux_module, linux_modules, impl_platform. rewrite A, L.
  assert (X : forall name v, In (name, v) linux_errno -> exists bs, errno_of h p name = Some bs
     /\ errno_native h name = Some bs
     /\ match libc_const crate name libc_errno with
        | Some z => make (byte_order h) Native u16 (size_of (libc_abi h U16)) z | None => None end = Some bs).
  { intros name v I. destruct (errno_native_is_linux h _ _ I) as (bs & E1 & _ & E2).
    exists (map Some bs). split; [now rewrite E2|]. split; [exact E1|].
    rewrite (libc_const_linux _ _ _ C I). pose proof (proj1 (errno_tables _ _) I) as T.
    unfold errno_native in E1. rewrite T in E1. exact E1. }
  assert (S1 : forall d, size_of (declare (native h) d) = size_of (declare (abi p h) d)
    /\ align_of (declare (native h) d) = align_of (declare (abi p h) d)
    /\ forall ds, d = Record ds -> offsets_of (declare (native h) d) = offsets_of (declare (abi p h) d))
    by (intros d; now apply native_is_target).
  assert (S2 : forall d, declare (native h) d = declare (libc_abi h) d)
    by (intros d; apply declare_ext; intros s; symmetry; apply libc_abi_native).
  destruct p; cbn; do 3 eexists; do 3 (split; [reflexivity|]);
    (split; [exists native; eexists; do 2 (split; [reflexivity|]); exact S1|]);
    (split; [exists native, libc_abi; do 2 (split; [reflexivity|]); intros d; rewrite <- (S2 d); auto|]);
    exact X.
Qed.
Print Assumptions plat_interchangeable_partial.
Definition linux_crate (n : string) : option Z :=
  match find (fun x => String.eqb (fst x) n) linux_errno with Some (_, v) => Some (Z.of_N v) | None => None end.
Example plat_interchangeable_example : supported linux_x86_64 X86_64 /\ libc_feature linux_x86_64 = true
  /\ machine_of X86_64 host64 /\ byte_order host64 = LittleFirst /\ crate_is_linux linux_crate.
Proof.
  do 2 (split; [reflexivity|]). split; [exact (proj1 host64_machine)|]. split; [reflexivity|].
  intros n v I. unfold linux_crate.
  assert (H : forallb (fun '(n, v) => match find (fun x => String.eqb (fst x) n) linux_errno with
     | Some (_, w) => N.eqb v w | None => false end) linux_errno = true) by (vm_compute; reflexivity).
  rewrite forallb_forall in H. specialize (H _ I). cbn beta iota in H.
  destruct (find _ linux_errno) as [(? & w)|]; [|discriminate]. apply N.eqb_eq in H. now subst.
Qed.

(** The architecture alone does not decide that: x32 (target
    [x86_64-unknown-linux-gnux32]) is compiled with [x86_64_sysv] although its
    addresses have 4 bytes, ... *)
Definition x32 : machine := {| prim_align := fun _ n => n; address := 4; byte_order := LittleFirst |}.
Theorem plat_x32_refuted : exists t h m n, family t = "unix" /\ supported t X86_64
  /\ linux_module t "target" = Some m /\ linux_module t "native" = Some n
  /\ ~ same_layout h n m.
Proof.
  exists linux_x86_64, x32. do 2 eexists. do 2 (split; [reflexivity|]). do 2 (split; [reflexivity|]).
  intros (f & g & F & G & S). cbn in F, G. injection F as <-. injection G as <-.
  destruct (S (Scalar Usize)) as (X & _). discriminate X.
Qed.
Print Assumptions plat_x32_refuted.

(** ... and big-endian Arm (target [aarch64_be-unknown-linux-gnu]) with
    little-endian integers. *)
Definition big64 : machine := {| prim_align := fun _ n => n; address := 8; byte_order := BigFirst |}.
Theorem plat_big_endian_refuted : exists t h m n crate, family t = "unix" /\ supported t Aarch64
  /\ machine_of Aarch64 h
  /\ linux_module t "target" = Some m /\ linux_module t "native" = Some n
  /\ module_errno crate h m "EPERM" <> module_errno crate h n "EPERM".
Proof.
  exists {| arch := "aarch64"; family := "unix"; env := "gnu"; libc_feature := true |}, big64.
  do 2 eexists. exists linux_crate. do 2 (split; [reflexivity|]).
  split; [split; [reflexivity|]; intros []; reflexivity|]. do 2 (split; [reflexivity|]).
  vm_compute. discriminate.
Qed.
Print Assumptions plat_big_endian_refuted.
