(** Vocabulary of C78. *)
From stdpp Require Import list numbers.

(** Two spellings of one path (documentation of std's [Path]): repeated separators ([47]) count once, a component "."
    ([46]) that is not the first one does not count, nor does a separator at the end. *)
Inductive same_path : list N -> list N -> Prop :=
| sp_refl a : same_path a a
| sp_sym a b : same_path a b -> same_path b a
| sp_trans a b c : same_path a b -> same_path b c -> same_path a c
| sp_twice a b : same_path (a ++ [47; 47]%N ++ b) (a ++ [47]%N ++ b)
| sp_dot a b : same_path (a ++ [47; 46; 47]%N ++ b) (a ++ [47]%N ++ b)
| sp_dot_end a : same_path (a ++ [47; 46]%N) (a ++ [47]%N)
| sp_end a : a <> [] -> same_path (a ++ [47]%N) a.
