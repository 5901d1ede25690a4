(** Model of the removal of the mean, BasicProcessor::filter, libs/hdd/waveform.cpp 436-448, in double
    precision (binary64 of Flocq, see Double_Model.v). WaveProc_Model.v has the same code with real
    numbers, together with the rest of the function.

    Every operation rounds to nearest, ties to even; there are no fused operations. The compiler does
    not reorder the sum. *)
From Coq Require Import ZArith.
From Flocq Require Import Core BinarySingleNaN.
From stdpp Require Import numbers list.
From Verif Require Import Double_Model XCorrD_Model.
Local Open Scope Z_scope.

(** std::accumulate(data, data + data_size, 0.0), from the left *)
Definition accumulate (data : list double) : double := fold_left dadd data zero.
(** 446; data_size is converted to double *)
Definition mean (data : list double) : double := ddiv (accumulate data) (of_Z (Z.of_nat (length data))).
(** 447 *)
Definition demean (data : list double) : list double := let m := mean data in (λ x, dsub x m) <$> data.
