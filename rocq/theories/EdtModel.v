(** Model of the Euclidean distance transform,
    /repo/src/voxelized_geometry_tools/signed_distance_field_generation.cpp.

    One transcription, parametrised by the arithmetic used for [double]; it is
    instantiated with exact extended rationals (EdtExact.v) and with IEEE-754
    binary64 (EdtFloat.v).  Field cells are read and written one at a time through
    [Prog.read]/[Prog.write], so the same text is used for sequential execution and
    for arbitrary interleavings of the parallel loops. *)
From Coq Require Import ZArith List Bool.
From Verif Require Import Util Grid Prog Schedule.
Import ListNotations.
Local Open Scope Z_scope.
Local Open Scope prog_scope.

(** Operations on [double] used by the transform. *)
Record arith : Type := mkArith {
  num : Type;
  a_ofZ : Z -> num;           (* static_cast<double>(int64_t) *)
  a_add : num -> num -> num;
  a_sub : num -> num -> num;
  a_div : num -> num -> num;
  a_ltb : num -> num -> bool;
  a_leb : num -> num -> bool;
  a_eqb : num -> num -> bool;
  a_inf : num;                (* std::numeric_limits<double>::infinity() *)
  a_ninf : num;               (* its negation *)
  a_zero : num }.             (* 0.0 *)

Section Edt.
Variable A : arith.
Notation V := (num A).

(** signed_distance_field_generation.cpp:37-83, XIndexer / YIndexer / ZIndexer. *)
Definition x_indexer (y z : Z) (x : Z) : idx := (x, y, z).
Definition y_indexer (x z : Z) (y : Z) : idx := (x, y, z).
Definition z_indexer (x y : Z) (z : Z) : idx := (x, y, z).

(** signed_distance_field_generation.cpp:101-102 and 140-141, lambda [square].
    Simplification: the int64 product is unbounded. *)
Definition square (v : Z) : V := a_ofZ A (v * v).

(** signed_distance_field_generation.cpp:116-119 and 221-224, the final loop
    writing the scratch values back with [set_f]. *)
Definition write_back (n : Z) (ixr : Z -> idx) (d : list V) : prog V unit :=
  pfold (fun _ q => let! v := lift (zget d q) in write (ixr q) v) (zrange 0 n) tt.

(** signed_distance_field_generation.cpp:85-122,
    ComputeOneDimensionDistanceTransformInPlaceBruteForce.  [scratch_d] is the
    thread's scratch column; its old contents are irrelevant because line 105 sets
    every element. *)
Definition brute_inner (ixr : Z -> idx) (q : Z) (d : list V) (other : Z) : prog V (list V) :=
  let! fo := read (ixr other) in
  let dist := a_add A (square (q - other)) fo in
  let! dq := lift (zget d q) in
  if a_ltb A dist dq then lift (zset d q dist) else Ret d.

Definition edt_brute_force (n : Z) (ixr : Z -> idx) : prog V unit :=
  let d0 := repeat (a_inf A) (Z.to_nat n) in
  let! d := pfold (fun d q => pfold (brute_inner ixr q) (zrange 0 n) d) (zrange 0 n) d0 in
  write_back n ixr d.

(** signed_distance_field_generation.cpp:153-172, lambda [sub]. *)
Definition sub_no_nan (a b : V) : V :=
  if a_eqb A a (a_inf A) && a_eqb A b (a_inf A) then a_zero A
  else if a_eqb A a (a_inf A) then a_inf A
  else if a_eqb A b (a_inf A) then a_ninf A
  else a_sub A a b.

(** signed_distance_field_generation.cpp:175-184, lambda [compute_s], once [v_k]
    and the two samples are known. *)
Definition breakpoint (q vk : Z) (fq fvk : V) : V :=
  let top := sub_no_nan (a_add A fq (square q)) (a_add A fvk (square vk)) in
  let bottom := a_ofZ A (2 * q - 2 * vk) in
  a_div A top bottom.

Definition compute_s (ixr : Z -> idx) (v : list Z) (q k : Z) : prog V V :=
  let! vk := lift (zget v k) in
  let! fq := read (ixr q) in
  let! fvk := read (ixr vk) in
  Ret (breakpoint q vk fq fvk).

(** signed_distance_field_generation.cpp:193-197, the [while] loop of phase 1.
    [fuel] bounds the number of iterations; the caller passes enough because [k]
    decreases. *)
Fixpoint pop_while (fuel : nat) (ixr : Z -> idx) (v : list Z) (z : list V)
    (q k : Z) (s : V) : prog V (Z * V) :=
  if 0 <? k then
    let! zk := lift (zget z k) in
    if a_leb A s zk then
      match fuel with
      | O => Fail
      | S fuel' =>
          let! s' := compute_s ixr v q (k - 1) in
          pop_while fuel' ixr v z q (k - 1) s'
      end
    else Ret (k, s)
  else Ret (k, s).

(** signed_distance_field_generation.cpp:190-203, one iteration of phase 1; the
    state is (k, scratch_v, scratch_z). *)
Definition phase1_step (ixr : Z -> idx) (st : Z * list Z * list V) (q : Z)
    : prog V (Z * list Z * list V) :=
  let '(k, v, z) := st in
  let! s0 := compute_s ixr v q k in
  let! (k1, s) := pop_while (Z.to_nat k) ixr v z q k s0 in
  let k2 := k1 + 1 in
  let! v' := lift (zset v k2 q) in
  let! z' := lift (zset z k2 s) in
  let! z'' := lift (zset z' (k2 + 1) (a_inf A)) in
  Ret (k2, v', z'').

(** signed_distance_field_generation.cpp:212-215, the [while] loop of phase 2
    ([int q] is converted to [double] in the comparison). *)
Fixpoint advance_while (fuel : nat) (z : list V) (q k : Z) : option Z :=
  let* zk := zget z (k + 1) in
  if a_ltb A zk (a_ofZ A q) then
    match fuel with O => None | S fuel' => advance_while fuel' z q (k + 1) end
  else Some k.

(** signed_distance_field_generation.cpp:210-219, one iteration of phase 2; the
    state is (k, scratch_d).  Simplification: the loop counter is [int] in the
    code, so lines of 2^31 or more elements are outside the model. *)
Definition phase2_step (n : Z) (ixr : Z -> idx) (v : list Z) (z : list V)
    (st : Z * list V) (q : Z) : prog V (Z * list V) :=
  let '(k, d) := st in
  let! k' := lift (advance_while (Z.to_nat n) z q k) in
  let! vk := lift (zget v k') in
  let! fvk := read (ixr vk) in
  let! d' := lift (zset d q (a_add A (square (q - vk)) fvk)) in
  Ret (k', d').

(** signed_distance_field_generation.cpp:124-226,
    ComputeOneDimensionDistanceTransformInPlaceLinear. *)
Definition edt_linear (n : Z) (ixr : Z -> idx) : prog V unit :=
  let v0 := repeat 0 (Z.to_nat n) in
  let d0 := repeat (a_zero A) (Z.to_nat n) in
  let! z0 := lift (zset (repeat (a_zero A) (Z.to_nat (n + 1))) 0 (a_ninf A)) in
  let! z1 := lift (zset z0 1 (a_inf A)) in
  let! (_, v, z) := pfold (phase1_step ixr) (zrange 1 n) (0, v0, z1) in
  let! (_, d) := pfold (phase2_step n ixr v z) (zrange 0 n) (0, d0) in
  write_back n ixr d.

(** signed_distance_field_generation.cpp:228-248,
    ComputeOneDimensionDistanceTransformInPlace. *)
Definition edt_1d (n : Z) (ixr : Z -> idx) : prog V unit :=
  if 8 <? n then edt_linear n ixr else edt_brute_force n ixr.

(** signed_distance_field_generation.cpp:265-271, get_indicies_from_iteration. *)
Definition first_index (step iteration : Z) : Z := iteration / step.
Definition second_index (step iteration : Z) : Z := iteration mod step.

(** signed_distance_field_generation.cpp:287-306, 326-345, 365-384: the three
    passes.  Body of one iteration of each parallel loop. *)
Definition x_task (nx nz it : Z) : prog V unit :=
  edt_1d nx (x_indexer (first_index nz it) (second_index nz it)).
Definition y_task (ny nz it : Z) : prog V unit :=
  edt_1d ny (y_indexer (first_index nz it) (second_index nz it)).
Definition z_task (ny nz it : Z) : prog V unit :=
  edt_1d nz (z_indexer (first_index ny it) (second_index ny it)).

(** The parallel loops in order.  A pass over an axis with one cell is skipped
    (lines 276, 315, 354). *)
Definition passes (nx ny nz : Z) : list (phase V) :=
  (if 1 <? nx then [mkPhase (ny * nz) (x_task nx nz)] else []) ++
  (if 1 <? ny then [mkPhase (nx * nz) (y_task ny nz)] else []) ++
  (if 1 <? nz then [mkPhase (nx * ny) (z_task ny nz)] else []).

(** signed_distance_field_generation.cpp:258-391,
    ComputeDistanceFieldTransformInPlace, with the iterations of each pass in
    increasing order (one thread). *)
Definition edt_3d (g : grid V) : option (grid V) :=
  run_phases (passes (g_nx g) (g_ny g) (g_nz g)) g.

(** The same function on any number of threads: [mstep] (Schedule.v) lets each pass
    hand out its iterations in any way and interleave cell accesses in any way; the
    passes are separated by the join at the end of StaticParallelForRangeLoop. *)
Definition edt_start (g : grid V) : mstate V := ([], g, passes (g_nx g) (g_ny g) (g_nz g)).

End Edt.

Arguments square {A}. Arguments brute_inner {A}. Arguments edt_brute_force {A}.
Arguments sub_no_nan {A}. Arguments breakpoint {A}. Arguments compute_s {A}.
Arguments pop_while {A}. Arguments phase1_step {A}. Arguments advance_while {A}.
Arguments phase2_step {A}. Arguments edt_linear {A}. Arguments edt_1d {A}.
Arguments write_back {A}. Arguments x_task {A}. Arguments y_task {A}. Arguments z_task {A}.
Arguments passes {A}. Arguments edt_3d {A}. Arguments edt_start {A}.
