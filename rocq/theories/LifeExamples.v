(** * Life of native objects behind Python: examples *)
From Verif Require Import Base Python PythonLife SpecLife LifeResults.

(** Options are made and given to two assemblers, the program gives up the options,
    assembles and deletes the assemblers in the other order. *)
Definition program : list action :=
  [MakeOptions; MakeAssembler (Some 1) SingleLayerOp F64; MakeAssembler (Some 1) HypersingularOp F32;
   CollectOptions 1; RunAssembleSingular 0 Assembled; RunAssemble 1 Mismatch; CollectAssembler 1;
   RunAssembleSingular 0 NoMemory; RunAssemble 0 Assembled; MakeAssembler None DoubleLayerOp F64; CollectAssembler 0;
   CollectOptions 1; UseOptions 1; UseOptions 0].

Definition after_program : life :=
  mkLife 7 [(6, Assembler 0); (5, Matrix); (1, Options); (0, Options)] 2 [(0, 0)] 3 [(2, mkHeldAssembler 0 6 true)].

Lemma program_reaches : reached program after_program.
Proof. eexists; split; [reflexivity|]. vm_compute. reflexivity. Qed.
