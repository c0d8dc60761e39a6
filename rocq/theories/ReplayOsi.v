(** The tests of lib/osi/src/cfg.rs, meta.rs, align.rs, brand.rs, pin.rs and
    convert.rs, run on the model. *)
From Coq Require Import String.
From Verif Require Import Base CfgSpec CfgModel EtcSpec EtcModel.
From Verif Require LayModel PtrModel FieldModel PhanModel OwnSpec OwnModel PinModel.
Local Open Scope res_scope.

(** lib/osi/src/cfg.rs:73-155, [basic_cond]: the value of [V0] to [V6]; the option
    [test], number 0, is set. *)
Example replay_cond :
  let t := CfgSpec.Option 0 in let n := Not t in
  let run l e := option_map (compiled (fun i => i =? 0)) (cond l e) in
  [ run [(t, [true])] None
  ; run [(t, [true])] (Some [false])
  ; run [(n, [false])] (Some [true])
  ; run [(n, [false]); (t, [true]); (CfgSpec.Any [n; n], [false])] None
  ; run [(n, [false]); (CfgSpec.Any [n; n], [false]); (CfgSpec.Any [t; n], [true])] None
  ; run [(n, [false]); (CfgSpec.Any [t; n], [true]); (n, [false])] (Some [false])
  ; run [(n, [false]); (CfgSpec.Any [n; n], [false]); (CfgSpec.Any [n], [false])] (Some [true]) ]
  = repeat (Some [true]) 7.
Proof. reflexivity. Qed.

(** lib/osi/src/meta.rs:156-162: the structure. *)
Definition Test : LayModel.ty := LayModel.Struct false 4 [LayModel.Prim 2 2; LayModel.Prim 1 1; LayModel.Prim 4 4].
(** lib/osi/src/meta.rs:167-186, [basic_field], on a little-endian host. *)
Example replay_field : let o := 0x7ffe0a10%N in let offset := N.of_nat (nth 1 (LayModel.offsets_of Test) 0) in
  let m := FieldModel.assign (fun _ => None) o (map Some [14; 0; 11; 99; 164; 5; 0; 0])%N in
  let b := FieldModel.shape_of (LayModel.Prim 1 1) in
  LayModel.size_of Test = 8 /\
  option_map (FieldModel.load m b) (FieldModel.field_of 64 offset b (FieldModel.shape_of Test) o) = Some [Some 11%N] /\
  PtrModel.container_of_ptr 64 offset (PtrModel.field_of_ptr 64 offset o) = Ok o /\
  FieldModel.load m b (PtrModel.field_of_ptr 64 offset o) = [Some 11%N].
Proof. repeat split. Qed.

(** Rust semantics: x86-64, for lib/osi/src/align.rs:377-459. *)
Definition x86_64 : host := {| number_align := fun _ n => n; address := 8; address_align := 8 |}.
(** Size and alignment, as lib/osi/src/align.rs:377-459 look at them. *)
Definition info (t : option LayModel.ty) : option (nat * nat) := option_map (fun t => (LayModel.size_of t, LayModel.align_of t)) t.
(** lib/osi/src/align.rs:377-399, [typeinfo_alignx]. *)
Example replay_alignx : map (fun n => info (align_n n)) [1; 2; 4; 8; 16; 32; 64; 128]
    = map (fun n => Some (0, n)) [1; 2; 4; 8; 16; 32; 64; 128] /\
  info align_any = Some (0, 1) /\ info (align_native x86_64) = Some (0, 8).
Proof. repeat split. Qed.
(** lib/osi/src/align.rs:401-419, [typeinfo_align_as]. *)
Example replay_align_as : map (fun n => info (align_as n)) [1; 2; 4; 8; 16; 32; 64; 128]
    = map (fun n => Some (0, n)) [1; 2; 4; 8; 16; 32; 64; 128].
Proof. reflexivity. Qed.
(** lib/osi/src/align.rs:421-459, [typeinfo_align_of]. *)
Example replay_align_of : map (fun t => info (align_of_type x86_64 t))
    [Number Integer 1; Number Integer 2; Number Integer 4; Number Integer 8; Number Integer 16; Size;
     Number Float 4; Number Float 8; Unit; Str]
  = map (fun n => Some (0, n)) [1; 2; 4; 8; 16; 8; 4; 8; 1; 1].
Proof. reflexivity. Qed.

(** lib/osi/src/brand.rs:77-94, [unique_basic]. *)
Example replay_unique : PhanModel.unique_debug = "Unique { id: Id<#[unique] '_> }"%string /\
  PhanModel.obj_eq (fun _ _ : unit => false) PhanModel.brand_id PhanModel.brand_id = true.
Proof. split; reflexivity. Qed.

(** Where objects are put: one after the other, for lib/osi/src/convert.rs:207-274. *)
Definition place (h : OwnModel.heap) : OwnModel.addr := (0x1000 + 0x100 * N.of_nat (length h))%N.
(** One block of lib/osi/src/convert.rs:210-273: an object, where it is, the pointer
    given away and back, with what is seen on the way, and the end of the block. *)
Definition block (k : OwnSpec.kind) : list OwnSpec.op :=
  [OwnSpec.New k 71; OwnSpec.Where 0; OwnSpec.Into 0; OwnSpec.Read 0; OwnSpec.Where 0;
   OwnSpec.From 0 k; OwnSpec.Read 0; OwnSpec.Where 0; OwnSpec.Drop 0].
(** lib/osi/src/convert.rs:206-274, [basic_into_from_deref]: 71 is read and the
    address stays the same, and each object is destroyed by its owner. *)
Example replay_into_from_deref :
  let see k := option_map snd (OwnModel.execs place OwnModel.boot (block k)) in
  let all a last := Some [OwnSpec.Silent; OwnSpec.At a; OwnSpec.Silent; OwnSpec.Value 71; OwnSpec.At a;
    OwnSpec.Silent; OwnSpec.Value 71; OwnSpec.At a; last] in
  map see [OwnSpec.Ref; OwnSpec.Mut; OwnSpec.Box; OwnSpec.Rc; OwnSpec.Arc]
  = [all 0x1000%N OwnSpec.Silent; all 0x1000%N OwnSpec.Silent; all 0x1000%N (OwnSpec.Destroyed 71);
     all 0x1010%N (OwnSpec.Destroyed 71); all 0x1010%N (OwnSpec.Destroyed 71)].
Proof. reflexivity. Qed.

(** lib/osi/src/pin.rs:80-89, [basic_as_ptr], 625-635 of lib/osi/src/ptr.rs,
    [basic_nonnull_from_pin_mut], and 613-623, [basic_nonnull_from_pin_ref]: the
    address of the pinned object, by each function. *)
Example replay_pin : forall a, In a [0x1000; 0x7ffe0a10]%N ->
  map (fun f => option_map snd (f [] (OwnModel.PMut a)))
    [PinModel.pin_as_ptr; PinModel.pin_as_mut_ptr; PinModel.nonnull_from_pin_ref; PinModel.nonnull_from_pin_mut] = repeat (Some a) 4 /\
  map (fun f => option_map snd (f [] (OwnModel.PRef a))) [PinModel.pin_as_ptr; PinModel.nonnull_from_pin_ref] = repeat (Some a) 2.
Proof. intros a [<-|[<-|[]]]; split; reflexivity. Qed.
