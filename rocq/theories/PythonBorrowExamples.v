(** * Examples of the memory behind native grids *)
From Verif Require Import Base BaseFacts Topology TopologyFacts Options Python SpecPython PythonFacts PythonResults PythonExamples
  PythonBorrow SpecPythonBorrow PythonBorrowResults.
From Coq Require Import ZArith.

(** Two libraries that number the types in different orders. *)
Definition forwards (t : cell_type) : nat :=
  match t with Point => 0 | Interval => 1 | Triangle => 2 | Quadrilateral => 3 | Tetrahedron => 4 | Hexahedron => 5 | Prism => 6 | Pyramid => 7 end.
Definition backwards (t : cell_type) : nat := 8 - forwards t.
Definition numbered (d : dtype) : nat := match d with F32 => 0 | F64 => 1 | C32 => 2 | C64 => 3 | OtherDtype => 4 end.

Definition demo_types (g : nat) : list cell_type := if g =? 0 then [Point; Interval; Triangle] else [Point; Interval; Quadrilateral].
Definition demo_dtype (g : nat) : dtype := if g =? 0 then F64 else F32.

(** The pointers to pointers are put together for the call, the arrays of numbers
    belong to the grid. *)
Definition demo_place (q : pointer) : place :=
  match q with IdPointers | DownwardConnectivity | UpwardConnectivity => InStorage | _ => InGrid end.

Definition demo_headers : headers :=
  mkHeaders forwards backwards numbered (fun d => 7 - numbered d)
    (fun g => mkCdata 2 (map forwards (demo_types g)) 3 (6 + g) (numbered (demo_dtype g)) (if g =? 0 then 3 else 4) 8 1 demo_place).

Lemma demo_proper : proper_headers demo_headers demo_types demo_dtype.
Proof.
  split; [intros [] []; cbn; intros E; congruence || discriminate E|]. split; [intros []; cbn; lia|].
  split; [intros [] []; cbn; intros E; congruence || discriminate E|].
  intros g. unfold demo_headers, demo_types, demo_dtype. cbn [hd_cdata cd_tdim cd_entity_types cd_dtype hd_grid_cell hd_grid_dtype].
  destruct (g =? 0); repeat split; discriminate.
Qed.

(** Two spaces on grid 0, one on grid 1; the latter is deleted and grid 1 goes. *)
Definition world_after (o : outcome nat) : world := match o with Return _ w => w | _ => initial_world end.
Definition memory_after (r : recreated) : memory := match r with Recreated m => m | _ => initial_memory end.

Definition memory1 : memory := Eval vm_compute in memory_after (space_memory demo_headers demo_outside 0 initial_world initial_memory).
Definition world1 : world := Eval vm_compute in world_after (function_space demo_outside 0 0 initial_world).
Definition memory2 : memory := Eval vm_compute in memory_after (space_memory demo_headers demo_outside 0 world1 memory1).
Definition world2 : world := Eval vm_compute in world_after (function_space demo_outside 0 1 world1).
Definition memory3 : memory := Eval vm_compute in memory_after (space_memory demo_headers demo_outside 1 world2 memory2).
Definition world3 : world := Eval vm_compute in world_after (function_space demo_outside 1 1 world2).
Definition world4 : world := Eval vm_compute in match delete_space 2 world3 with Return _ w => w | _ => initial_world end.
Definition final_memory : memory := Eval vm_compute in collect 1 memory3.

Lemma demo_borrow : exists w, borrow_history demo_outside demo_headers [Created 0 0; Created 0 1; Created 1 1; Deleted 2] w final_memory /\
  map (fun x => (fst x, ps_grid (snd x))) (w_spaces w) = [(1, 0); (0, 0)].
Proof.
  assert (H1 : borrow_history demo_outside demo_headers [Created 0 0] world1 memory1).
  { apply (bh_created demo_outside demo_headers [] initial_world initial_memory 0 0 0); [apply bh_start|vm_compute; intros []|vm_compute; reflexivity|vm_compute; reflexivity]. }
  assert (H2 : borrow_history demo_outside demo_headers [Created 0 0; Created 0 1] world2 memory2).
  { apply (bh_created demo_outside demo_headers [Created 0 0] world1 memory1 0 1 1); [exact H1|vm_compute; intros []|vm_compute; reflexivity|vm_compute; reflexivity]. }
  assert (H3 : borrow_history demo_outside demo_headers [Created 0 0; Created 0 1; Created 1 1] world3 memory3).
  { apply (bh_created demo_outside demo_headers [Created 0 0; Created 0 1] world2 memory2 1 1 2); [exact H2|vm_compute; intros []|vm_compute; reflexivity|vm_compute; reflexivity]. }
  assert (H4 : borrow_history demo_outside demo_headers [Created 0 0; Created 0 1; Created 1 1; Deleted 2] world4 memory3).
  { apply (bh_deleted demo_outside demo_headers [Created 0 0; Created 0 1; Created 1 1] world3 memory3 2); [exact H3|left; reflexivity|vm_compute; reflexivity]. }
  exists world4. split; [|reflexivity]. apply (bh_collected demo_outside demo_headers _ world4 memory3 1 H4).
  intros s p I. assert (E : map (fun x => ps_grid (snd x)) (w_spaces world4) = [0; 0]) by reflexivity.
  apply (in_map (fun x => ps_grid (snd x))) in I. rewrite E in I. cbn [snd] in I. destruct I as [I|[I|[]]]; rewrite <- I; discriminate.
Qed.

(** The array of entity types of grid 0 is gone. *)
Lemma demo_dangling : exists w a i b, borrow_history demo_outside demo_headers [Created 0 0; Created 0 1; Created 1 1; Deleted 2] w final_memory /\
  use_space 0 w = Return (a, NGrid 0, NFamily i) w /\ assoc Nat.eqb a (me_grids final_memory) = Some b /\
  readable final_memory (bo_pointer b EntityTypes) = false.
Proof.
  destruct demo_borrow as (w & Hh & Hs). assert (exists p, In (0, p) (w_spaces w) /\ ps_grid p = 0) as (p & I & Ep).
  { destruct (w_spaces w) as [|(s1, p1) [|(s2, p2) [|x l]]]; try discriminate Hs. injection Hs as -> _ -> E2. exists p2. split; [right; now left|exact E2]. }
  destruct (live_grid _ _ _ _ _ _ _ _ _ demo_proper Hh I) as (a & i & b & U & Eb & _ & Hq). rewrite Ep in U.
  exists w, a, i, b. split; [exact Hh|]. split; [exact U|]. split; [exact Eb|].
  destruct (readable final_memory (bo_pointer b EntityTypes)) eqn:R; [|reflexivity]. apply Hq in R. destruct R as (N & _). now contradiction N.
Qed.

(** A grid library with a further cell type that this library does not know. *)
Definition newer_headers : headers :=
  mkHeaders forwards backwards numbered (fun d => 7 - numbered d)
    (fun g => mkCdata 2 [0; 1; 8] 3 (6 + g) 1 5 8 1 demo_place).

Lemma newer_unknown : cd_tdim (hd_cdata newer_headers 0) < length (cd_entity_types (hd_cdata newer_headers 0)) /\
  nth_error (cd_entity_types (hd_cdata newer_headers 0)) 2 = Some 8 /\ forall t, hd_grid_cell newer_headers t <> 8.
Proof. split; [cbn; lia|]. split; [reflexivity|]. intros []; cbn; lia. Qed.
