(** The signal-to-quantization-noise ratio.

    Modelled code: src/fastforward/testing/metrics.py:9-38 sqnr with in_db=False. A tensor is the list of its
    entries along the first dimension, each flattened; numbers are rational, where floats round. The shapes are
    compared by the lengths of these lists; tensors without entries or of dimension zero, and the logarithm, are
    not modelled. *)
From Coq Require Import List Arith Bool QArith.
From Verif Require Import Prelude.
Import ListNotations.
Local Open Scope Q_scope.

Definition total (l : list Q) : Q := fold_right Qplus 0 l.
(** torch.mean *)
Definition mean (l : list Q) : Q := total l / inject_Z (Z.of_nat (length l)).

(** The lengths of the entries. *)
Definition shape (t : list (list Q)) : list nat := map (@length Q) t.

(** metrics.py:31: quant_error of one entry, and metrics.py:32-33: the mean of its squares. *)
Definition difference (a b : list Q) : list Q := map (fun p => fst p - snd p) (combine a b).
Definition mean_square (l : list Q) : Q := mean (map (fun x => x * x) l).

(** metrics.py:26-38 sqnr *)
Definition sqnr (original quantized : list (list Q)) (eps : Q) : result Q :=
  if list_eq_dec Nat.eq_dec (shape original) (shape quantized) then
    Ok (mean (map (fun p => mean_square (fst p) / (mean_square (difference (fst p) (snd p)) + eps)) (combine original quantized)))
  else Err ValueError.
