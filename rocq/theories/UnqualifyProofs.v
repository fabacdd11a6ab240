(** Facts about dropping namespaces. *)
From Verif Require Import Base TypesModel UnqualifyModel.

Lemma unqualify_path lead id args : unqualify_type (TPath lead id args) = TPath [] id (map unqualify_type args).
Proof. cbn [unqualify_type]. f_equal. apply map_ext. intros []; reflexivity. Qed.
