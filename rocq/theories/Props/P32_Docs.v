(** * Property C126: the tables of traits in the documentation *)
From Coq Require Import List Ascii Bool String Arith Lia.
From Verif Require Import Model.Base Model.CsvText Model.Docs Spec.DocTables Proofs.DocProofs.
Import ListNotations StringSyntax.
Open Scope list_scope.
Open Scope nat_scope.

(** ** C126 *)
(** The table has the heading of the directive, and inside a csv file with one row for each
    trait, in the order of the hierarchy. *)
Theorem C126_table_partial : forall mro traits, listed mro traits ->
  (forall n t, In (n, t) traits -> n <> [] /\ forall l, d_default t = DTuple l -> List.length l = 1) ->
  exists body csv rows,
    table_of_traits mro = Ok ([LF] ++ txt ".. csv-table:: Traits" ++ [LF] ++ txt "   :header-rows: 1" ++ [LF; LF] ++ body) /\
    content 3 body csv /\ read_csv csv = Some ([txt "name"; txt "symbol"; txt "default value"; txt "help"] :: rows) /\
    Forall2 shows traits rows.
Proof. exact table_content. Qed.
Print Assumptions C126_table_partial.
(** Every hierarchy has its list of traits, and only one. *)
Theorem C126_listed : forall mro, exists traits, listed mro traits /\ forall traits', listed mro traits' -> traits' = traits.
Proof. intros mro. exists (doc_traits mro). split; [apply listed_doc|intros l L; now apply listed_same]. Qed.
Print Assumptions C126_listed.
(** The lines that a text is indented by are those of the text: every line but the last ends
    with a line end, CR LF counting as one, and there is no other line end in it. *)
Theorem C126_lines : forall s, List.concat (splitlines s) = s /\
  (forall a l m b, splitlines s = a ++ l :: m :: b -> exists t c, l = t ++ [c] /\ line_end c /\ ~ (c = CR /\ exists m', m = LF :: m')) /\
  (forall l t d u, In l (splitlines s) -> l = t ++ d :: u -> line_end d -> u = [] \/ d = CR /\ u = [LF]).
Proof.
  intros s. split; [apply concat_splitlines|]. split.
  - intros a l m b E. destruct (splitlines_lines s a l m b E) as (t & c & H1 & H2 & H3 & _). exists t, c. rewrite <- breaks_iff. auto.
  - intros l t d u I E D. apply breaks_iff in D. exact (splitlines_ends s l t d u I E D).
Qed.
Print Assumptions C126_lines.
(** The documentation of the class keeps the rest of its text. *)
Theorem C126_rest_kept : forall mro table pre post, table_of_traits mro = Ok table -> ~ In "%"%char pre -> ~ In "%"%char post ->
  documented mro (Some (pre ++ txt "%(table_of_traits)s" ++ post)) = Ok (pre ++ table ++ post).
Proof. exact documented_table. Qed.
Print Assumptions C126_rest_kept.
(** Other names in the text, and classes without a text, are refused. *)
Theorem C126_unknown : forall mro table pre key post, table_of_traits mro = Ok table -> ~ In "%"%char pre -> ~ In "%"%char post -> ~ In "("%char key -> ~ In ")"%char key ->
  key <> txt "table_of_traits" -> documented mro (Some (pre ++ txt "%(" ++ key ++ txt ")s" ++ post)) = Err KeyError.
Proof. intros. eapply documented_unknown; eauto. now split. Qed.
Print Assumptions C126_unknown.
Theorem C126_no_text : forall mro table, table_of_traits mro = Ok table -> documented mro None = Err TypeError.
Proof. intros mro table T. unfold documented. now rewrite T. Qed.
Print Assumptions C126_no_text.
(** Percent signs in the text: two are shown as one; a sign at the end, a name that is not closed
    or is cut off, and a conversion that Python does not know are refused. *)
Definition python_conversions : text := txt "diouxXeEfFgGcrsa%#0123456789- +.*hlL".
Theorem C126_percent : forall mro table pre post, table_of_traits mro = Ok table -> ~ In "%"%char pre -> ~ In "%"%char post ->
  documented mro (Some (pre ++ txt "%%" ++ post)) = Ok (pre ++ txt "%" ++ post) /\
  documented mro (Some (pre ++ txt "%")) = Err ValueError /\
  (~ In ")"%char post -> documented mro (Some (pre ++ txt "%(" ++ post)) = Err ValueError) /\
  documented mro (Some (pre ++ txt "%(table_of_traits)")) = Err ValueError /\
  (forall c, ~ In c python_conversions -> documented mro (Some (pre ++ txt "%(table_of_traits)" ++ c :: post)) = Err ValueError).
Proof.
  intros mro table pre post T A B. split; [now apply (documented_percent _ table)|]. split; [now apply (documented_last_percent _ table)|]. split; [intros K; now apply (documented_open_key _ table)|].
  split; [rewrite <- (app_nil_r (txt "%(table_of_traits)")); apply (documented_broken _ table); auto; discriminate|].
  intros c C. apply (documented_broken _ table); auto. intros c' r [= <- _] ->. apply C. cbn. intuition.
Qed.
Print Assumptions C126_percent.
(** A trait that a class defines anew is listed twice, with the default value that counts
    and with the one that does not. *)
Theorem C126_overridden_refuted : forall above c between b below v w v' w' n t t' traits,
  k_has_traits c = true -> k_vars c = v ++ (n, Some t) :: w -> k_has_traits b = true -> k_vars b = v' ++ (n, Some t') :: w' ->
  listed (above ++ c :: between ++ b :: below) traits ->
  exists x y z, traits = x ++ (n, t) :: y ++ (n, t') :: z.
Proof.
  intros above c between b below v w v' w' n t t' traits H1 V1 H2 V2 L. exact (listed_twice _ c _ b _ _ _ _ _ n t t' traits H1 V1 H2 V2 L).
Qed.
Print Assumptions C126_overridden_refuted.
(** A trait whose default value is a tuple, but of one item, makes the class impossible. *)
Theorem C126_tuple_refuted : forall mro traits n t l, listed mro traits -> In (n, t) traits -> d_default t = DTuple l -> List.length l <> 1 ->
  table_of_traits mro = Err TypeError /\ forall doc, documented mro doc = Err TypeError.
Proof.
  intros mro traits n t l L I D N. apply listed_same in L. subst traits. assert (T : table_of_traits mro = Err TypeError) by (unfold table_of_traits; now rewrite (rows_refused _ n t l)).
  split; [exact T|]. intros doc. unfold documented. now rewrite T.
Qed.
Print Assumptions C126_tuple_refuted.
(** The table starts in the first column wherever the text of the class stands: no column of
    spaces can be taken away from that text any more. *)
Theorem C126_indentation_refuted : forall mro pre post doc lines k, ~ In "%"%char pre -> ~ In "%"%char post ->
  documented mro (Some (pre ++ txt "%(table_of_traits)s" ++ post)) = Ok doc ->
  join_lines lines = doc -> (forall l, In l lines -> ~ In LF l) -> common_indent k lines -> k = 0.
Proof.
  intros mro pre post doc lines k A B D J N C. destruct (table_of_traits mro) as [table|e] eqn:T; [|unfold documented in D; rewrite T in D; discriminate].
  rewrite (documented_table mro table pre post T A B) in D. injection D as <-. exact (table_flush mro table pre post lines k T J N C).
Qed.
Print Assumptions C126_indentation_refuted.

Definition radius := (txt "radius", Some (TDoc (Some (txt "r")) (DObject (txt "0.0")) (txt "Radius, in m"))).
Definition body_type := (txt "body_type", Some (TDoc None (DText []) [])).
Definition thin := DClass true [(txt "help", None); radius].
Definition wide := DClass true [body_type; (txt "radius", Some (TDoc (Some (txt "r")) (DObject (txt "1.0")) []))].
Definition mixin := DClass false [radius].
Example C126_case : listed [thin; mixin; wide] [(fst radius, TDoc (Some (txt "r")) (DObject (txt "0.0")) (txt "Radius, in m"));
    (txt "body_type", TDoc None (DText []) []); (txt "radius", TDoc (Some (txt "r")) (DObject (txt "1.0")) [])] /\
  documented [thin] (Some (txt "A class" ++ [LF] ++ txt "    %(table_of_traits)s" ++ [LF])) =
    Ok (txt "A class" ++ [LF] ++ txt "    " ++ [LF] ++ txt ".. csv-table:: Traits" ++ [LF] ++ txt "   :header-rows: 1" ++ [LF; LF] ++
        txt "   name,symbol,default value,help" ++ [CR; LF] ++ txt "   ``radius``,:math:`r`,``0.0``,""Radius, in m""" ++ [CR; LF; LF]) /\
  table_of_traits [DClass true [(txt "size", Some (TDoc None (DTuple [txt "1"; txt "2"]) []))]] = Err TypeError.
Proof.
  split; [|split; vm_compute; reflexivity]. unfold thin, wide, radius, body_type. apply listed_other, listed_trait, listed_done. apply listed_plain; [reflexivity|]. apply listed_trait, listed_trait, listed_done, listed_end.
Qed.
Example C126_percent_case : documented [thin; mixin] (Some (txt "Sure to 100%%")) = Ok (txt "Sure to 100%") /\
  documented [thin; mixin] (Some (txt "Sure to 100%")) = Err ValueError /\ documented [thin] (Some (txt "%(table_of_traits)y")) = Err ValueError.
Proof. vm_compute. repeat split. Qed.
