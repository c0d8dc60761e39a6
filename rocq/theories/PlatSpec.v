(** Vocabulary for compilation targets.  Does not use the model. *)
From Coq Require Import String.
From Coq Require Import List.
From Verif Require Import Base.
From Verif Require AbiSpec.
Local Open Scope string_scope.

(** What rustc tells about the target it compiles for, as far as it matters
    here, and whether the feature [libc] is on. *)
Record target := { arch : string; family : string; env : string; libc_feature : bool }.

(** The name rustc uses for the architecture of a platform. *)
Definition arch_name (p : AbiSpec.platform) : string :=
  match p with AbiSpec.Aarch64 => "aarch64" | AbiSpec.X86 => "x86" | AbiSpec.X86_64 => "x86_64" end.
Definition supported (t : target) (p : AbiSpec.platform) : Prop := arch t = arch_name p.
Definition unsupported (t : target) : Prop := forall p, ~ supported t p.

(** The targets that end in [-pc-windows-msvc] of the two Intel architectures. *)
Definition windows_msvc (t : target) : Prop :=
  family t = "windows" /\ env t = "msvc" /\ (arch t = "x86" \/ arch t = "x86_64").

(** The alias [target] of the ABI modules is there for the supported
    architectures of UNIX systems, and names their ABI. *)
Definition should_alias (t : target) (p : AbiSpec.platform) : Prop :=
  family t = "unix" /\ supported t p.
