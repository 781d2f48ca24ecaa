(** Executions for the examples of C72. *)
From stdpp Require Import gmap list numbers.
From Verif Require Import Base InternModel InternSpec InternEx NewModel NewSpec NewEx NewScanModel NewScan.

Definition cafter {V Q} (E : ienv V Q) (ls : list (ilabel V Q)) : cstate V Q := default cinit (run (cstep E) cinit ls).
Lemma cafter_run {V Q} (E : ienv V Q) (ls : list (ilabel V Q)) :
  (if run (cstep E) cinit ls then true else false) = true -> run (cstep E) cinit ls = Some (cafter E ls).
Proof. unfold cafter. by destruct (run (cstep E) cinit ls). Qed.

Definition ex_sets : list (ilabel ival (nat * nat)) :=
  [ICall 1 (OLen 0) 0; IStep 1 0 0; IStep 1 0 0; IStep 1 0 0; IStep 1 0 1; IStep 1 0 0; IStep 1 0 0;
   ICall 3 (OLen 2) 0; IStep 3 0 1; IStep 3 0 0; IStep 3 0 0; IStep 3 0 2; IStep 3 0 0; IStep 3 0 0;
   ICall 2 (ONew (IV 0 4 0)) 0; IStep 2 0 0; IStep 2 0 0; IStep 2 0 0;
   IStep 2 0 3; IStep 2 0 0; IStep 2 0 0; IStep 2 100 0; IStep 2 0 0; IStep 2 0 0;
   ICall 2 (OLen 0) 0; IStep 2 0 0].

Section first.
  Context {V Q : Type} (E : ienv V Q).
  Lemma only_first_creates ls x t (o : iop V Q) r o' b i : run (cstep E) cinit ls = Some x ->
    EvRet t o r ∈ n_log (c_new x) -> op_ty E o' = op_ty E o ->
    NPush o' b ∉ nstack (c_new x) t /\ NPub o' b i ∉ nstack (c_new x) t.
  Proof.
    intros Hr He Ht. split; intros Hf; by eapply (only_first_call E ls x t o r _ Hr He Hf).
  Qed.
End first.
