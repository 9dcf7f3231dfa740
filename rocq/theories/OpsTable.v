(** The operators of fastforward/_quantops/quantized_operators.yaml, written by tools/gen_optable.py: the
    specification, the torch function, and other names of that function. *)
From Coq Require Import String List.
From Verif Require Import OpsModel.
Import ListNotations.
Local Open Scope string_scope.
Local Open Scope list_scope.

Definition operators_yaml : list (spec * string * list string) := [
  (** line 1 *)
  (mkSpec "linear" [] [("input", TName "Quantized", None); ("weight", TName "Quantized", None); ("bias", TSub "Optional" [TName "MaybeQuantized"], Some (DCode "None"))] [] (Some (TName "Quantized")), "torch.nn.functional.linear", []);
  (** line 4 *)
  (mkSpec "conv1d" [] [("input", TName "Quantized", None); ("weight", TName "Quantized", None); ("bias", TSub "Optional" [TName "MaybeQuantized"], Some (DCode "None")); ("stride", TOr (TName "int") (TName "Size"), Some (DCode "1")); ("padding", TOr (TOr (TName "int") (TName "Size")) (TName "str"), Some (DCode "0")); ("dilation", TOr (TName "int") (TName "Size"), Some (DCode "1")); ("groups", TName "int", Some (DCode "1"))] [] (Some (TName "Quantized")), "torch.nn.functional.conv1d", []);
  (** line 7 *)
  (mkSpec "conv2d" [] [("input", TName "Quantized", None); ("weight", TName "Quantized", None); ("bias", TSub "Optional" [TName "MaybeQuantized"], Some (DCode "None")); ("stride", TOr (TName "int") (TName "Size"), Some (DCode "1")); ("padding", TOr (TOr (TName "int") (TName "Size")) (TName "str"), Some (DCode "0")); ("dilation", TOr (TName "int") (TName "Size"), Some (DCode "1")); ("groups", TName "int", Some (DCode "1"))] [] (Some (TName "Quantized")), "torch.nn.functional.conv2d", []);
  (** line 10 *)
  (mkSpec "conv3d" [] [("input", TName "Quantized", None); ("weight", TName "Quantized", None); ("bias", TSub "Optional" [TName "MaybeQuantized"], Some (DCode "None")); ("stride", TOr (TName "int") (TName "Size"), Some (DCode "1")); ("padding", TOr (TOr (TName "int") (TName "Size")) (TName "str"), Some (DCode "0")); ("dilation", TOr (TName "int") (TName "Size"), Some (DCode "1")); ("groups", TName "int", Some (DCode "1"))] [] (Some (TName "Quantized")), "torch.nn.functional.conv3d", []);
  (** line 13 *)
  (mkSpec "softmax" [] [("input", TName "Quantized", None); ("dim", TName "int", None); ("dtype", TSub "Optional" [TName "DType"], Some (DCode "None"))] [] (Some (TName "Quantized")), "torch.nn.functional.softmax", ["torch.softmax"]);
  (** line 22 *)
  (mkSpec "relu" [] [("input", TName "Quantized", None)] [] (Some (TName "Quantized")), "torch.nn.functional.relu", ["torch.relu"]);
  (** line 27 *)
  (mkSpec "sigmoid" [] [("input", TName "Quantized", None)] [] (Some (TName "Quantized")), "torch.nn.functional.sigmoid", ["torch.sigmoid"]);
  (** line 32 *)
  (mkSpec "conv_transpose1d" [] [("input", TName "Quantized", None); ("weight", TName "Quantized", None); ("bias", TSub "Optional" [TName "MaybeQuantized"], Some (DCode "None")); ("stride", TOr (TName "int") (TName "Size"), Some (DCode "1")); ("padding", TOr (TName "int") (TName "Size"), Some (DCode "0")); ("output_padding", TOr (TName "int") (TName "Size"), Some (DCode "0")); ("groups", TName "int", Some (DCode "1")); ("dilation", TOr (TName "int") (TName "Size"), Some (DCode "1"))] [] (Some (TName "Quantized")), "torch.nn.functional.conv_transpose1d", []);
  (** line 35 *)
  (mkSpec "conv_transpose2d" [] [("input", TName "Quantized", None); ("weight", TName "Quantized", None); ("bias", TSub "Optional" [TName "MaybeQuantized"], Some (DCode "None")); ("stride", TOr (TName "int") (TName "Size"), Some (DCode "1")); ("padding", TOr (TName "int") (TName "Size"), Some (DCode "0")); ("output_padding", TOr (TName "int") (TName "Size"), Some (DCode "0")); ("groups", TName "int", Some (DCode "1")); ("dilation", TOr (TName "int") (TName "Size"), Some (DCode "1"))] [] (Some (TName "Quantized")), "torch.nn.functional.conv_transpose2d", []);
  (** line 38 *)
  (mkSpec "conv_transpose3d" [] [("input", TName "Quantized", None); ("weight", TName "Quantized", None); ("bias", TSub "Optional" [TName "MaybeQuantized"], Some (DCode "None")); ("stride", TOr (TName "int") (TName "Size"), Some (DCode "1")); ("padding", TOr (TName "int") (TName "Size"), Some (DCode "0")); ("output_padding", TOr (TName "int") (TName "Size"), Some (DCode "0")); ("groups", TName "int", Some (DCode "1")); ("dilation", TOr (TName "int") (TName "Size"), Some (DCode "1"))] [] (Some (TName "Quantized")), "torch.nn.functional.conv_transpose3d", []);
  (** line 41 *)
  (mkSpec "avg_pool1d" [] [("input", TName "Quantized", None); ("kernel_size", TOr (TName "int") (TName "Size"), None); ("stride", TOr (TName "int") (TName "Size"), None); ("padding", TOr (TName "int") (TName "Size"), Some (DCode "0")); ("ceil_mode", TName "Bool", Some (DCode "False")); ("count_include_pad", TName "Bool", Some (DCode "True"))] [] (Some (TName "Quantized")), "torch.nn.functional.avg_pool1d", []);
  (** line 44 *)
  (mkSpec "avg_pool2d" [] [("input", TName "Quantized", None); ("kernel_size", TOr (TName "int") (TName "Size"), None); ("stride", TOr (TName "int") (TName "Size"), None); ("padding", TOr (TName "int") (TName "Size"), Some (DCode "0")); ("ceil_mode", TName "Bool", Some (DCode "False")); ("count_include_pad", TName "Bool", Some (DCode "True"))] [] (Some (TName "Quantized")), "torch.nn.functional.avg_pool2d", []);
  (** line 47 *)
  (mkSpec "avg_pool3d" [] [("input", TName "Quantized", None); ("kernel_size", TOr (TName "int") (TName "Size"), None); ("stride", TOr (TName "int") (TName "Size"), None); ("padding", TOr (TName "int") (TName "Size"), Some (DCode "0")); ("ceil_mode", TName "Bool", Some (DCode "False")); ("count_include_pad", TName "Bool", Some (DCode "True"))] [] (Some (TName "Quantized")), "torch.nn.functional.avg_pool3d", []);
  (** line 50 *)
  (mkSpec "embedding" [] [("input", TName "Tensor", None); ("weight", TName "Quantized", None); ("padding_idx", TSub "Optional" [TName "int"], Some (DCode "None")); ("max_norm", TSub "Optional" [TName "float"], Some (DCode "None")); ("norm_type", TName "float", Some (DCode "2.0")); ("scale_grad_by_freq", TName "Bool", Some (DCode "False")); ("sparse", TName "Bool", Some (DCode "False"))] [] (Some (TName "Quantized")), "torch.nn.functional.embedding", []);
  (** line 53 *)
  (mkSpec "layer_norm" [] [("input", TName "Quantized", None); ("normalized_shape", TSub "tuple" [TName "int"; TName "..."], None); ("weight", TSub "Optional" [TName "Quantized"], Some (DCode "None")); ("bias", TSub "Optional" [TName "MaybeQuantized"], Some (DCode "None")); ("eps", TName "float", Some (DCode "1e-5"))] [] (Some (TName "Quantized")), "torch.nn.functional.layer_norm", []);
  (** line 56 *)
  (mkSpec "matmul" [] [("input", TName "Quantized", None); ("other", TName "Quantized", None)] [] (Some (TName "Quantized")), "torch.matmul", []);
  (** line 59 *)
  (mkSpec "mm" [] [("input", TName "Quantized", None); ("mat2", TName "Quantized", None)] [] (Some (TName "Quantized")), "torch.mm", []);
  (** line 62 *)
  (mkSpec "bmm" [] [("input", TName "Quantized", None); ("mat2", TName "Quantized", None)] [] (Some (TName "Quantized")), "torch.bmm", []);
  (** line 65 *)
  (mkSpec "add" [] [("input", TName "Quantized", None); ("other", TOr (TName "Quantized") (TName "float"), None); ("alpha", TName "Number", Some (DCode "1"))] [] (Some (TName "Quantized")), "torch.add", []);
  (** line 68 *)
  (mkSpec "sub" [] [("input", TName "Quantized", None); ("other", TOr (TName "Quantized") (TName "float"), None); ("alpha", TName "Number", Some (DCode "1"))] [] (Some (TName "Quantized")), "torch.sub", []);
  (** line 71 *)
  (mkSpec "mul" [] [("input", TName "Quantized", None); ("other", TOr (TName "Quantized") (TName "float"), None)] [] (Some (TName "Quantized")), "torch.mul", []);
  (** line 74 *)
  (mkSpec "div" [] [("input", TName "Quantized", None); ("other", TOr (TName "Quantized") (TName "float"), None)] [] (Some (TName "Quantized")), "torch.div", []);
  (** line 77 *)
  (mkSpec "pow" [] [("input", TName "Quantized", None); ("exponent", TOr (TName "Quantized") (TName "float"), None)] [] (Some (TName "Quantized")), "torch.pow", []);
  (** line 80 *)
  (mkSpec "sum" [] [("input", TName "Quantized", None); ("dim", TSub "Optional" [TName "int"], Some (DCode "None"))] [] (Some (TName "Quantized")), "torch.sum", []);
  (** line 83 *)
  (mkSpec "bitwise_not" [] [("input", TName "Quantized", None)] [] (Some (TName "Quantized")), "torch.bitwise_not", []);
  (** line 86 *)
  (mkSpec "negative" [] [("input", TName "Quantized", None)] [] (Some (TName "Quantized")), "torch.negative", []);
  (** line 89 *)
  (mkSpec "positive" [] [("input", TName "Quantized", None)] [] (Some (TName "Quantized")), "torch.positive", []);
  (** line 92 *)
  (mkSpec "bitwise_and" [] [("input", TName "Quantized", None); ("other", TName "Quantized", None)] [] (Some (TName "Quantized")), "torch.bitwise_and", []);
  (** line 95 *)
  (mkSpec "bitwise_or" [] [("input", TName "Quantized", None); ("other", TName "Quantized", None)] [] (Some (TName "Quantized")), "torch.bitwise_or", []);
  (** line 98 *)
  (mkSpec "bitwise_xor" [] [("input", TName "Quantized", None); ("other", TName "Quantized", None)] [] (Some (TName "Quantized")), "torch.bitwise_xor", []);
  (** line 101 *)
  (mkSpec "floor_divide" [] [("input", TName "Quantized", None); ("other", TOr (TName "Quantized") (TName "float"), None)] [] (Some (TName "Quantized")), "torch.floor_divide", []);
  (** line 104 *)
  (mkSpec "bitwise_left_shift" [] [("input", TName "Quantized", None); ("other", TOr (TName "Quantized") (TName "float"), None)] [] (Some (TName "Quantized")), "torch.bitwise_left_shift", []);
  (** line 107 *)
  (mkSpec "bitwise_right_shift" [] [("input", TName "Quantized", None); ("other", TOr (TName "Quantized") (TName "float"), None)] [] (Some (TName "Quantized")), "torch.bitwise_right_shift", []);
  (** line 110 *)
  (mkSpec "remainder" [] [("input", TName "Quantized", None); ("other", TOr (TName "Quantized") (TName "float"), None)] [] (Some (TName "Quantized")), "torch.remainder", []);
  (** line 113 *)
  (mkSpec "silu" [] [("input", TName "Quantized", None)] [] (Some (TName "Quantized")), "torch.nn.functional.silu", []);
  (** line 116 *)
  (mkSpec "gelu" [] [("input", TName "Quantized", None); ("approximate", TName "str", Some (DString "none"))] [] (Some (TName "Quantized")), "torch.nn.functional.gelu", []);
  (** line 119 *)
  (mkSpec "dropout" [] [("input", TName "Quantized", None); ("p", TName "float", Some (DCode "0.5")); ("training", TName "bool", Some (DCode "True")); ("inplace", TName "bool", Some (DCode "False"))] [] (Some (TName "Quantized")), "torch.nn.functional.dropout", []);
  (** line 122 *)
  (mkSpec "permute" [] [("input", TName "Quantized", None); ("dims", TSub "tuple" [TName "int"; TName "..."], None)] [] (Some (TName "Quantized")), "torch.permute", []);
  (** line 125 *)
  (mkSpec "cat" [] [("tensors", TSub "Sequence" [TName "Quantized"], None); ("dim", TName "int", Some (DCode "0"))] [] (Some (TName "Quantized")), "torch.cat", []);
  (** line 128 *)
  (mkSpec "index_add" [] [("input", TName "Quantized", None); ("dim", TName "int", None); ("index", TName "Tensor", None); ("source", TName "Quantized", None); ("alpha", TName "float", Some (DCode "1"))] [] (Some (TName "Quantized")), "torch.index_add", []);
  (** line 131 *)
  (mkSpec "cumsum" [] [("input", TName "Quantized", None); ("dim", TName "int", None)] [] (Some (TName "Quantized")), "torch.cumsum", []);
  (** line 134 *)
  (mkSpec "pad" [] [("input", TName "Quantized", None); ("pad", TSub "Sequence" [TName "int"], None); ("mode", TName "str", Some (DCode "...")); ("value", TSub "Optional" [TName "float"], Some (DCode "None"))] [] (Some (TName "Quantized")), "torch.nn.functional.pad", []);
  (** line 141 *)
  (mkSpec "max_pool2d" [] [("input", TName "Quantized", None); ("kernel_size", TOr (TName "int") (TName "Size"), None); ("stride", TSub "Optional" [TOr (TName "int") (TName "Size")], Some (DCode "None")); ("padding", TOr (TName "int") (TName "Size"), Some (DCode "0")); ("dilation", TOr (TName "int") (TName "Size"), Some (DCode "1")); ("ceil_mode", TName "Bool", Some (DCode "False"))] [] (Some (TName "Quantized")), "torch.nn.functional.max_pool2d", []);
  (** line 144 *)
  (mkSpec "interpolate" [] [("input", TName "Quantized", None); ("size", TSub "Optional" [TOr (TName "int") (TName "Size")], Some (DCode "None")); ("scale_factor", TSub "Optional" [TOr (TName "float") (TSub "Sequence" [TName "float"])], Some (DCode "None")); ("mode", TName "str", Some (DString "nearest")); ("align_corners", TSub "Optional" [TName "Bool"], Some (DCode "None")); ("recompute_scale_factor", TSub "Optional" [TName "Bool"], Some (DCode "None")); ("antialias", TName "Bool", Some (DCode "False"))] [] (Some (TName "Quantized")), "torch.nn.functional.interpolate", []);
  (** line 147 *)
  (mkSpec "unfold" [] [("input", TName "Quantized", None); ("kernel_size", TOr (TName "int") (TSub "tuple" [TName "int"; TName "..."]), None); ("dilation", TOr (TName "int") (TSub "tuple" [TName "int"; TName "..."]), Some (DCode "1")); ("padding", TOr (TName "int") (TSub "tuple" [TName "int"; TName "..."]), Some (DCode "0")); ("stride", TOr (TName "int") (TSub "tuple" [TName "int"; TName "..."]), Some (DCode "1"))] [] (Some (TName "Quantized")), "torch.nn.functional.unfold", []);
  (** line 154 *)
  (mkSpec "ones_like" [] [("input", TName "Quantized", None); ("dtype", TSub "Optional" [TName "DType"], Some (DCode "None")); ("layout", TSub "Optional" [TName "Layout"], Some (DCode "None")); ("device", TSub "Optional" [TName "Device"], Some (DCode "None")); ("requires_grad", TName "Bool", Some (DCode "False")); ("memory_format", TSub "Optional" [TName "MemoryFormat"], Some (DCode "None"))] [] (Some (TName "Quantized")), "torch.ones_like", []);
  (** line 157 *)
  (mkSpec "zeros_like" [] [("input", TName "Quantized", None); ("dtype", TSub "Optional" [TName "DType"], Some (DCode "None")); ("layout", TSub "Optional" [TName "Layout"], Some (DCode "None")); ("device", TSub "Optional" [TName "Device"], Some (DCode "None")); ("requires_grad", TName "Bool", Some (DCode "False")); ("memory_format", TSub "Optional" [TName "MemoryFormat"], Some (DCode "None"))] [] (Some (TName "Quantized")), "torch.zeros_like", []);
  (** line 160 *)
  (mkSpec "full_like" [] [("input", TName "Quantized", None); ("fill_value", TName "Number", None); ("dtype", TSub "Optional" [TName "DType"], Some (DCode "None")); ("layout", TSub "Optional" [TName "Layout"], Some (DCode "None")); ("device", TSub "Optional" [TName "Device"], Some (DCode "None")); ("requires_grad", TName "Bool", Some (DCode "False")); ("memory_format", TSub "Optional" [TName "MemoryFormat"], Some (DCode "None"))] [] (Some (TName "Quantized")), "torch.full_like", []);
  (** line 163 *)
  (mkSpec "empty_like" [] [("input", TName "Quantized", None); ("dtype", TSub "Optional" [TName "DType"], Some (DCode "None")); ("layout", TSub "Optional" [TName "Layout"], Some (DCode "None")); ("device", TSub "Optional" [TName "Device"], Some (DCode "None")); ("requires_grad", TName "Bool", Some (DCode "False")); ("memory_format", TSub "Optional" [TName "MemoryFormat"], Some (DCode "None"))] [] (Some (TName "Quantized")), "torch.empty_like", []);
  (** line 168 *)
  (mkSpec "exp" [] [("input", TName "Quantized", None)] [] (Some (TName "Quantized")), "torch.exp", []);
  (** line 171 *)
  (mkSpec "sin" [] [("input", TName "Quantized", None)] [] (Some (TName "Quantized")), "torch.sin", []);
  (** line 174 *)
  (mkSpec "cos" [] [("input", TName "Quantized", None)] [] (Some (TName "Quantized")), "torch.cos", []);
  (** line 177 *)
  (mkSpec "rms_norm" [] [("input", TName "Quantized", None); ("normalized_shape", TSub "tuple" [TName "int"; TName "..."], None); ("weight", TSub "Optional" [TName "Quantized"], Some (DCode "None")); ("eps", TSub "Optional" [TName "float"], Some (DCode "None"))] [] (Some (TName "Quantized")), "torch.nn.functional.rms_norm", ["torch.rms_norm"])].
