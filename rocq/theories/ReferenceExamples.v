(** * The matrices stored in the tests against the structure of the model

    No property rests on this file.  It compares the numbers that
    tests/compare_to_bempp_cl.rs stores (computed by another program, bempp-cl) with what
    the theorems say about the matrices on the octahedron, in the numbering of cells and
    DOFs that the model gives: if the model numbered cells, vertices or DOFs in another
    way than the code, the stored matrices would not have this structure.  It also shows
    which mistakes the comparison cannot see.

    All numbers are multiplied by 10^18 and rounded to integers. *)
From Coq Require Import ZArith.
From Verif Require Import Base Topology DofMap Process Space Shapes SpecShapes ShapesExamples Tests.
Local Open Scope Z_scope.

(** tests/compare_to_bempp_cl.rs:33-33. *)
Definition cl_single_layer : list (list Z) := [
  [185453882298248700; 87554145956780740; 59638974215144720; 87554145956780740; 87554145956780740; 59638974215144730; 46707421274545480; 59638974215144720];
  [87554145956780740; 185453882298248700; 87554145956780740; 59638974215144720; 59638974215144720; 87554145956780740; 59638974215144730; 46707421274545480];
  [59638974215144720; 87554145956780740; 185453882298248700; 87554145956780740; 46707421274545480; 59638974215144720; 87554145956780740; 59638974215144730];
  [87554145956780740; 59638974215144720; 87554145956780740; 185453882298248700; 59638974215144730; 46707421274545480; 59638974215144720; 87554145956780740];
  [87554145956780740; 59638974215144720; 46707421274545476; 59638974215144730; 185453882298248700; 87554145956780740; 59638974215144720; 87554145956780740];
  [59638974215144730; 87554145956780740; 59638974215144720; 46707421274545476; 87554145956780740; 185453882298248700; 87554145956780740; 59638974215144720];
  [46707421274545476; 59638974215144730; 87554145956780740; 59638974215144720; 59638974215144720; 87554145956780740; 185453882298248700; 87554145956780740];
  [59638974215144720; 46707421274545476; 59638974215144730; 87554145956780740; 87554145956780740; 59638974215144720; 87554145956780740; 185453882298248700]].

(** tests/compare_to_bempp_cl.rs:55-55. *)
Definition cl_double_layer : list (list Z) := [
  [0; -84777867200455670; -48343860959178774; -84777867200455670; -84777867200455660; -48343860959178774; -33625570841778946; -48343860959178770];
  [-84777867200455670; 0; -84777867200455670; -48343860959178774; -48343860959178770; -84777867200455660; -48343860959178774; -33625570841778946];
  [-48343860959178774; -84777867200455670; 0; -84777867200455670; -33625570841778946; -48343860959178770; -84777867200455660; -48343860959178774];
  [-84777867200455670; -48343860959178774; -84777867200455670; 0; -48343860959178774; -33625570841778946; -48343860959178770; -84777867200455660];
  [-84777867200455660; -48343860959178770; -33625570841778946; -48343860959178770; 0; -84777867200455660; -48343860959178774; -84777867200455660];
  [-48343860959178770; -84777867200455660; -48343860959178770; -33625570841778946; -84777867200455660; 0; -84777867200455660; -48343860959178774];
  [-33625570841778946; -48343860959178770; -84777867200455660; -48343860959178770; -48343860959178774; -84777867200455660; 0; -84777867200455660];
  [-48343860959178770; -33625570841778946; -48343860959178770; -84777867200455660; -84777867200455660; -48343860959178774; -84777867200455660; 0]].

(** tests/compare_to_bempp_cl.rs:77-77. *)
Definition cl_adjoint_double_layer : list (list Z) := [
  [0; -84784352610119810; -48343860959178774; -84784352610119800; -84784352610119810; -48343860959178770; -33625570841778946; -48343860959178774];
  [-84784352610119800; 0; -84784352610119810; -48343860959178774; -48343860959178774; -84784352610119810; -48343860959178770; -33625570841778946];
  [-48343860959178774; -84784352610119800; 0; -84784352610119810; -33625570841778946; -48343860959178774; -84784352610119810; -48343860959178770];
  [-84784352610119810; -48343860959178774; -84784352610119800; 0; -48343860959178770; -33625570841778946; -48343860959178774; -84784352610119810];
  [-84784352610119800; -48343860959178770; -33625570841778946; -48343860959178770; 0; -84784352610119800; -48343860959178774; -84784352610119810];
  [-48343860959178770; -84784352610119800; -48343860959178770; -33625570841778946; -84784352610119810; 0; -84784352610119800; -48343860959178774];
  [-33625570841778946; -48343860959178770; -84784352610119800; -48343860959178770; -48343860959178774; -84784352610119810; 0; -84784352610119800];
  [-48343860959178770; -33625570841778946; -48343860959178770; -84784352610119800; -84784352610119800; -48343860959178774; -84784352610119810; 0]].

(** tests/compare_to_bempp_cl.rs:100-100. *)
Definition cl_hypersingular : list (list Z) := [
  [335506421554940040; -108924599152626980; -56645455600578270; -56645455600578280; -56645455600578300; -56645455600578280];
  [-108924599152626980; 335506421554940040; -56645455600578280; -56645455600578270; -56645455600578280; -56645455600578290];
  [-56645455600578280; -56645455600578270; 335506421554940040; -108924599152626980; -56645455600578286; -56645455600578290];
  [-56645455600578270; -56645455600578280; -108924599152626980; 335506421554940040; -56645455600578280; -56645455600578286];
  [-56645455600578290; -56645455600578300; -56645455600578290; -56645455600578290; 335506421554940040; -108924599152626980];
  [-56645455600578290; -56645455600578310; -56645455600578290; -56645455600578290; -108924599152626980; 335506421554940040]].

(** tests/compare_to_bempp_cl.rs:128-128. *)
Definition cl_helmholtz_single : list (list (Z * Z)) := [
  [(87424603575969390, 110042034368201020); (-23327911481921360, 49191025842711240); (-42119478098942650, 3720159902487029); (-23327911481921360, 49191025842711250); (-23327911481921364, 49191025842711240); (-42119478098942634, 3720159902487025); (-34470465984055150, -28165446806261080); (-42119478098942650, 3720159902487025)];
  [(-23327911481921364, 49191025842711250); (87424603575969390, 110042034368201040); (-23327911481921360, 49191025842711240); (-42119478098942650, 3720159902487026); (-42119478098942650, 3720159902487025); (-23327911481921360, 49191025842711250); (-42119478098942634, 3720159902487025); (-34470465984055150, -28165446806261072)];
  [(-42119478098942650, 3720159902487029); (-23327911481921360, 49191025842711250); (87424603575969390, 110042034368201020); (-23327911481921360, 49191025842711240); (-34470465984055150, -28165446806261080); (-42119478098942650, 3720159902487025); (-23327911481921364, 49191025842711240); (-42119478098942634, 3720159902487025)];
  [(-23327911481921360, 49191025842711240); (-42119478098942650, 3720159902487026); (-23327911481921364, 49191025842711250); (87424603575969390, 110042034368201040); (-42119478098942634, 3720159902487025); (-34470465984055150, -28165446806261072); (-42119478098942650, 3720159902487025); (-23327911481921360, 49191025842711250)];
  [(-23327911481921364, 49191025842711250); (-42119478098942650, 3720159902487026); (-34470465984055150, -28165446806261080); (-42119478098942634, 3720159902487025); (87424603575969390, 110042034368201040); (-23327911481921360, 49191025842711240); (-42119478098942650, 3720159902487027); (-23327911481921364, 49191025842711250)];
  [(-42119478098942634, 3720159902487025); (-23327911481921360, 49191025842711250); (-42119478098942650, 3720159902487026); (-34470465984055156, -28165446806261075); (-23327911481921360, 49191025842711240); (87424603575969390, 110042034368201040); (-23327911481921364, 49191025842711250); (-42119478098942650, 3720159902487024)];
  [(-34470465984055150, -28165446806261080); (-42119478098942634, 3720159902487025); (-23327911481921364, 49191025842711250); (-42119478098942650, 3720159902487026); (-42119478098942650, 3720159902487027); (-23327911481921364, 49191025842711250); (87424603575969390, 110042034368201040); (-23327911481921360, 49191025842711240)];
  [(-42119478098942650, 3720159902487026); (-34470465984055156, -28165446806261075); (-42119478098942634, 3720159902487025); (-23327911481921360, 49191025842711250); (-23327911481921364, 49191025842711250); (-42119478098942650, 3720159902487024); (-23327911481921360, 49191025842711240); (87424603575969390, 110042034368201040)]].

(** tests/compare_to_bempp_cl.rs:150-150. *)
Definition cl_helmholtz_double : list (list (Z * Z)) := [
  [(0, 0); (-79026264737681690, -81846810470517350); (19069239180003210, -102768587869592980); (-79026264737681720, -81846810470517370); (-79026264737681690, -81846810470517370); (19069239180003230, -102768587869593020); (100897065099661150, -76811634097225050); (19069239180003215, -102768587869592990)];
  [(-79026264737681720, -81846810470517370); (0, 0); (-79026264737681700, -81846810470517370); (19069239180003212, -102768587869592990); (19069239180003212, -102768587869592980); (-79026264737681680, -81846810470517370); (19069239180003230, -102768587869592990); (100897065099661150, -76811634097225060)];
  [(19069239180003210, -102768587869592980); (-79026264737681720, -81846810470517370); (0, 0); (-79026264737681690, -81846810470517350); (100897065099661150, -76811634097225050); (19069239180003215, -102768587869592990); (-79026264737681690, -81846810470517370); (19069239180003230, -102768587869593020)];
  [(-79026264737681700, -81846810470517370); (19069239180003212, -102768587869592990); (-79026264737681720, -81846810470517370); (0, 0); (19069239180003230, -102768587869592990); (100897065099661150, -76811634097225060); (19069239180003212, -102768587869592980); (-79026264737681680, -81846810470517370)];
  [(-79026264737681720, -81846810470517370); (19069239180003215, -102768587869592980); (100897065099661150, -76811634097225050); (19069239180003230, -102768587869592990); (0, 0); (-79026264737681690, -81846810470517350); (19069239180003212, -102768587869592990); (-79026264737681690, -81846810470517370)];
  [(19069239180003222, -102768587869592990); (-79026264737681730, -81846810470517370); (19069239180003220, -102768587869592990); (100897065099661150, -76811634097225060); (-79026264737681690, -81846810470517350); (0, 0); (-79026264737681690, -81846810470517370); (19069239180003220, -102768587869592990)];
  [(100897065099661150, -76811634097225050); (19069239180003230, -102768587869592990); (-79026264737681720, -81846810470517370); (19069239180003215, -102768587869592980); (19069239180003212, -102768587869592990); (-79026264737681690, -81846810470517370); (0, 0); (-79026264737681690, -81846810470517350)];
  [(19069239180003220, -102768587869592990); (100897065099661150, -76811634097225060); (19069239180003222, -102768587869592990); (-79026264737681730, -81846810470517370); (-79026264737681690, -81846810470517370); (19069239180003220, -102768587869592990); (-79026264737681690, -81846810470517350); (0, 0)]].

(** tests/compare_to_bempp_cl.rs:171-171. *)
Definition cl_helmholtz_adjoint : list (list (Z * Z)) := [
  [(0, 0); (-79034545070751000, -81847000302448850); (19069239180003205, -102768587869592980); (-79034545070750970, -81847000302448860); (-79034545070750990, -81847000302448870); (19069239180003230, -102768587869592990); (100897065099661150, -76811634097225050); (19069239180003212, -102768587869592980)];
  [(-79034545070750970, -81847000302448850); (0, 0); (-79034545070751000, -81847000302448870); (19069239180003210, -102768587869592980); (19069239180003210, -102768587869592980); (-79034545070750990, -81847000302448870); (19069239180003233, -102768587869592990); (100897065099661150, -76811634097225060)];
  [(19069239180003205, -102768587869592980); (-79034545070750970, -81847000302448860); (0, 0); (-79034545070751000, -81847000302448850); (100897065099661150, -76811634097225050); (19069239180003212, -102768587869592980); (-79034545070750990, -81847000302448870); (19069239180003230, -102768587869592990)];
  [(-79034545070751000, -81847000302448870); (19069239180003210, -102768587869592980); (-79034545070750970, -81847000302448850); (0, 0); (19069239180003233, -102768587869592990); (100897065099661150, -76811634097225060); (19069239180003210, -102768587869592980); (-79034545070750990, -81847000302448870)];
  [(-79034545070750990, -81847000302448870); (19069239180003210, -102768587869592980); (100897065099661150, -76811634097225050); (19069239180003230, -102768587869593020); (0, 0); (-79034545070750990, -81847000302448850); (19069239180003210, -102768587869592980); (-79034545070750990, -81847000302448860)];
  [(19069239180003233, -102768587869593020); (-79034545070750990, -81847000302448860); (19069239180003212, -102768587869592980); (100897065099661150, -76811634097225060); (-79034545070750990, -81847000302448850); (0, 0); (-79034545070750990, -81847000302448860); (19069239180003215, -102768587869592980)];
  [(100897065099661150, -76811634097225050); (19069239180003230, -102768587869593020); (-79034545070750990, -81847000302448870); (19069239180003210, -102768587869592980); (19069239180003210, -102768587869592980); (-79034545070750990, -81847000302448860); (0, 0); (-79034545070750990, -81847000302448850)];
  [(19069239180003212, -102768587869592980); (100897065099661150, -76811634097225060); (19069239180003233, -102768587869593020); (-79034545070750990, -81847000302448860); (-79034545070750990, -81847000302448860); (19069239180003215, -102768587869592980); (-79034545070750990, -81847000302448850); (0, 0)]].

(** ** The octahedron and its spaces in the model *)

Definition octahedron : option grid := match regular_sphere no_numbers 0 1 with Ok b => Some (built_grid 0 Triangle b) | _ => None end.

(** The number of vertices that cells [c] and [c'] have in common. *)
Definition in_common (g : grid) (c c' : nat) : nat :=
  length (filter (fun v => existsb (Nat.eqb v) (g_sub g c' 0)) (g_sub g c 0)).

(** DOFs [i] and [j] are the same (2), different on one cell (1), or on no common cell (0). *)
Definition together (dm : dofmap) (i j : nat) : nat :=
  if Nat.eqb i j then 2%nat
  else if existsb (fun d => existsb (Nat.eqb i) d && existsb (Nat.eqb j) d) (dm_cells dm) then 1%nat else 0%nat.

Definition at_ {A : Type} (m : list (list A)) (i j : nat) : option A := match nth_error m i with Some r => nth_error r j | None => None end.

(** [assert_relative_eq!] with a given epsilon (the relative tolerance, by default the
    machine epsilon, is left out). *)
Definition near (eps : Z) (x y : Z) : bool := Z.abs (x - y) <=? eps.
Definition near2 (eps : Z) (x y : Z * Z) : bool := (Z.abs (fst x - fst y) <=? eps) && (Z.abs (snd x - snd y) <=? eps).

Definition all_below (n : nat) (f : nat -> bool) : bool := forallb f (seq 0 n).

(** Entries [(i, j)] of an [n] by [n] matrix that have the same class have the same
    value, up to 10^-16. *)
Definition by_class {A : Type} (near : Z -> A -> A -> bool) (n : nat) (class : nat -> nat -> nat) (m : nat -> nat -> option A) : bool :=
  all_below n (fun i => all_below n (fun j => all_below n (fun k => all_below n (fun l =>
    match m i j, m k l with
    | Some x, Some y => negb (Nat.eqb (class i j) (class k l)) || near 100 x y
    | _, _ => false
    end)))).

(** The test: every entry of [m] within [eps] of the stored one. *)
Definition compare {A : Type} (near : Z -> A -> A -> bool) (n : nat) (eps : Z) (m stored : nat -> nat -> option A) : bool :=
  all_below n (fun i => all_below n (fun j => match m i j, stored i j with Some x, Some y => near eps x y | _, _ => false end)).

Definition every {A : Type} (n : nat) (P : nat -> nat -> A -> bool) (m : nat -> nat -> option A) : bool :=
  all_below n (fun i => all_below n (fun j => match m i j with Some x => P i j x | None => false end)).

Definition row_sum (n : nat) (m : nat -> nat -> option Z) (i : nat) : Z :=
  fold_right Z.add 0 (map (fun j => match m i j with Some x => x | None => 0 end) (seq 0 n)).

Definition flip {A : Type} (m : nat -> nat -> option A) (i j : nat) : option A := m j i.

(** [perm], tests/compare_to_bempp_cl.rs:102. *)
Definition perm (i : nat) : nat := nth i [0; 5; 2; 4; 3; 1]%nat i.
Definition permuted {A : Type} (m : list (list A)) (i j : nat) : option A := at_ m (perm i) (perm j).

(** ** The stored matrices have the structure of the model's octahedron *)

(** The entries of piecewise constants depend on the number of common vertices only
    (compare C97, C120). *)
Example stored_by_cells : match octahedron with None => False | Some g =>
  by_class near 8 (in_common g) (at_ cl_single_layer) = true /\ by_class near 8 (in_common g) (at_ cl_double_layer) = true /\
  by_class near 8 (in_common g) (at_ cl_adjoint_double_layer) = true /\ by_class near2 8 (in_common g) (at_ cl_helmholtz_single) = true /\
  by_class near2 8 (in_common g) (at_ cl_helmholtz_double) = true /\ by_class near2 8 (in_common g) (at_ cl_helmholtz_adjoint) = true end.
Proof. vm_compute. repeat split. Qed.

(** Positive for the single layer (C70); zero on the diagonal and negative elsewhere
    for the double layers (C117). *)
Example stored_signs :
  every 8 (fun _ _ x => 0 <? x) (at_ cl_single_layer) = true /\
  every 8 (fun i j x => if Nat.eqb i j then x =? 0 else x <? 0) (at_ cl_double_layer) = true /\
  every 8 (fun i j x => if Nat.eqb i j then x =? 0 else x <? 0) (at_ cl_adjoint_double_layer) = true.
Proof. vm_compute. repeat split. Qed.

(** The adjoint double layer is the transpose where cells have no common vertex, and
    nearly so elsewhere (C40). *)
Example stored_transposes : match octahedron with None => False | Some g =>
  every 8 (fun i j x => match at_ cl_double_layer j i with
    | Some y => if Nat.eqb (in_common g i j) 0 then near 100 x y else near (10 ^ 13) x y
    | None => false end) (at_ cl_adjoint_double_layer) = true end.
Proof. vm_compute. reflexivity. Qed.

(** The hypersingular matrix of continuous linear functions: three values, in the
    numbering of the DOFs in the model after the permutation of the test, and rows that
    add up to zero (C41). *)
Example stored_hypersingular : match octahedron with None => False | Some g =>
  match new_serial g (lagrange 1) with
  | Ok sp => by_class near 6 (together (sp_dofmap sp)) (permuted cl_hypersingular) = true
  | _ => False end end /\
  forallb (fun i => near 1000 (row_sum 6 (permuted cl_hypersingular) i) 0) (seq 0 6) = true.
Proof. vm_compute. split; reflexivity. Qed.

(** All rows have the same sum (C120). *)
Example stored_sums :
  forallb (fun i => near 1000 (row_sum 8 (at_ cl_single_layer) i) (row_sum 8 (at_ cl_single_layer) 0)) (seq 0 8) = true /\
  forallb (fun i => near 1000 (row_sum 8 (at_ cl_double_layer) i) (row_sum 8 (at_ cl_double_layer) 0)) (seq 0 8) = true /\
  forallb (fun i => near 1000 (row_sum 8 (at_ cl_adjoint_double_layer) i) (row_sum 8 (at_ cl_adjoint_double_layer) 0)) (seq 0 8) = true.
Proof. vm_compute. repeat split. Qed.

(** Other numberings of the cells or of the DOFs do not fit: the first two cells
    exchanged, the DOFs without the permutation. *)
Definition swap01 (i : nat) : nat := match i with 0 => 1 | 1 => 0 | _ => i end%nat.
Example other_numberings : match octahedron with None => False | Some g =>
  by_class near 8 (fun i j => in_common g (swap01 i) (swap01 j)) (at_ cl_single_layer) = false /\
  match new_serial g (lagrange 1) with
  | Ok sp => by_class near 6 (together (sp_dofmap sp)) (at_ cl_hypersingular) = false
  | _ => False end end.
Proof. vm_compute. split; reflexivity. Qed.

(** ** Mistakes that the comparison with the stored matrices does not see

    Test and trial space exchanged; double layer and adjoint exchanged. *)
Example unseen_by_the_tests :
  compare near 8 (10 ^ 15) (flip (at_ cl_single_layer)) (at_ cl_single_layer) = true /\
  compare near 8 (10 ^ 14) (flip (at_ cl_double_layer)) (at_ cl_double_layer) = true /\
  compare near 6 (10 ^ 14) (flip (permuted cl_hypersingular)) (permuted cl_hypersingular) = true /\
  compare near 8 (10 ^ 14) (at_ cl_adjoint_double_layer) (at_ cl_double_layer) = true /\
  compare near 8 (10 ^ 14) (at_ cl_double_layer) (at_ cl_adjoint_double_layer) = true /\
  compare near2 8 (10 ^ 14) (at_ cl_helmholtz_adjoint) (at_ cl_helmholtz_double) = true /\
  compare near2 8 (10 ^ 14) (at_ cl_helmholtz_double) (at_ cl_helmholtz_adjoint) = true.
Proof. vm_compute. repeat split. Qed.

(** ... and mistakes that it does see: the wrong sign, the wrong operator. *)
Example seen_by_the_tests :
  compare near 8 (10 ^ 14) (fun i j => option_map Z.opp (at_ cl_double_layer i j)) (at_ cl_double_layer) = false /\
  compare near 8 (10 ^ 14) (at_ cl_single_layer) (at_ cl_double_layer) = false /\
  compare near2 8 (10 ^ 14) (at_ cl_helmholtz_single) (at_ cl_helmholtz_double) = false.
Proof. vm_compute. repeat split. Qed.
