(** hash() of data. *)
From Verif Require Import Base Types TypeBuild Mem Hash Ops.

(** ReadableDynamicDataRef::hash (DynamicData.hpp:305-308). *)
Definition data_hash (strhash : skind -> list N -> N) (d : data) : res N := hash strhash (d_type d) (d_mem d) 0.
