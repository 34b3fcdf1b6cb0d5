(** C09: document comparison. *)
From Coq Require Import Lia Permutation.
From Verif Require Import PyBase PyFacts PyJson S_JsonPtr M_Diff S_Diff P_Diff.

Section T.
(** For every iteration order of sets, and whatever lists of lists Python can sort. *)
Context (order : list str -> list str) (Ho : forall l, Permutation (order l) l).
Context (sort_lists : list json -> bool).

(** Nothing is reported exactly when the documents are the same (on the shown keys). *)
Theorem c09_empty_iff_same : forall inc exc a b r, wf a -> wf b ->
  diff order sort_lists inc exc a b [] = Ok r -> (r = [] <-> same inc exc a b).
Proof. intros inc exc a b r Wa Wb E. exact (proj1 (good_all order Ho sort_lists inc exc a b [] r Wa Wb E)). Qed.
(** Without filters: they are equal Python values. *)
Theorem c09_empty_equal : forall a b, wf a -> wf b ->
  diff order sort_lists [] [] a b [] = Ok [] -> py_eqb a b = true.
Proof. intros a b Wa Wb E. apply same_eq; auto. now apply (c09_empty_iff_same [] [] a b []). Qed.
(** Comparing a document with itself, and no exception, if its lists are uniform. *)
Theorem c09_self : forall inc exc a, wf a -> uniform sort_lists a ->
  diff order sort_lists inc exc a a [] = Ok [].
Proof.
  intros inc exc a W U. destruct (diff_total order Ho sort_lists inc exc a a [] U U) as [r E]. rewrite E. f_equal.
  apply (c09_empty_iff_same inc exc a a r W W E). now apply (same_self inc exc sort_lists).
Qed.
Theorem c09_no_exception : forall inc exc a b, uniform sort_lists a -> uniform sort_lists b ->
  exists r, diff order sort_lists inc exc a b [] = Ok r.
Proof. intros. now apply diff_total. Qed.
(** Every reported pointer, read as a path, leads to a real difference. *)
Theorem c09_reported_real : forall inc exc a b r p k, wf a -> wf b ->
  diff order sort_lists inc exc a b [] = Ok r -> In (p, k) r ->
  exists path, real inc exc a b path k /\
    (hd_error path <> Some [] -> p = join (lit "/") (map rfc_escape path)).
Proof.
  intros inc exc a b r p k Wa Wb E H. destruct (good_all order Ho sort_lists inc exc a b [] r Wa Wb E) as [_ G].
  destruct (G p k H) as (path & -> & R). exists path. split; auto. apply ptr_top.
Qed.
(** The result as a list of entries does not depend on the iteration order, except for
    its own order, when it is empty. *)
Theorem c09_order_independent : forall order', (forall l, Permutation (order' l) l) ->
  forall inc exc a b r r', wf a -> wf b ->
  diff order sort_lists inc exc a b [] = Ok r -> diff order' sort_lists inc exc a b [] = Ok r' ->
  (r = [] <-> r' = []).
Proof.
  intros order' Ho' inc exc a b r r' Wa Wb E E'. rewrite (c09_empty_iff_same inc exc a b r Wa Wb E).
  symmetry. exact (proj1 (good_all order' Ho' sort_lists inc exc a b [] r' Wa Wb E')).
Qed.
End T.
Print Assumptions c09_empty_iff_same.
Print Assumptions c09_empty_equal.
Print Assumptions c09_self.
Print Assumptions c09_no_exception.
Print Assumptions c09_reported_real.
Print Assumptions c09_order_independent.
(** A document with a mixed list cannot be compared with itself. *)
Theorem c09_mixed_list_refuted : exists a, wf a /\
  diff (fun l => l) (fun _ => true) [] [] a a [] = Err ValueError.
Proof. exists (JList [JInt 1; JStr (lit "a")]). split; [repeat constructor|reflexivity]. Qed.
Print Assumptions c09_mixed_list_refuted.

Definition doc_a := JObj [(lit "x", JList [JInt 1; JInt 2]); (lit "a/b", JObj [(lit "k", JBool true)]); (lit "z", JNull)].
Definition doc_b := JObj [(lit "a/b", JObj [(lit "k", JInt 1); (lit "n", JStr [])]); (lit "x", JList [JInt 1; JInt 3]); (lit "y", JNull)].
Example c09_ex_wf : wf doc_a /\ wf doc_b /\ uniform (fun _ => true) doc_a.
Proof.
  split; [|split].
  - constructor; [cbn; repeat constructor; cbn; intuition discriminate|]. repeat constructor; cbn; intuition discriminate.
  - constructor; [cbn; repeat constructor; cbn; intuition discriminate|]. repeat constructor; cbn; intuition discriminate.
  - apply uni_obj. constructor; [|constructor; [|constructor; [|constructor]]]; cbn [snd].
    + apply uni_list.
      * constructor; [apply uni_scalar; exact I|]. constructor; [apply uni_scalar; exact I|constructor].
      * intros x y [<-|[<-|[]]] [<-|[<-|[]]]; reflexivity.
      * intros [X|[X|[]]]; discriminate.
      * reflexivity.
    + apply uni_obj. constructor; [apply uni_scalar; exact I|constructor].
    + apply uni_scalar. exact I.
Qed.
Example c09_ex : diff (fun l => l) (fun _ => true) [] [] doc_a doc_b [] =
  Ok [(lit "y", DKey); (lit "z", DKey); (lit "x/1", DVal (JInt 2) (JInt 3)); (lit "a~1b/n", DKey)].
Proof. vm_compute. reflexivity. Qed.
Example c09_ex_filter : diff (fun l => l) (fun _ => true) [lit "a/b"; lit "k"] [] doc_a doc_b [] = Ok [].
Proof. vm_compute. reflexivity. Qed.
