(** Functions: C50.  Specification: SpecFunctions.v. *)
From Verif Require Import Base NumFmt Value Backend Eq Render ParseArgs Build Queries History Demo
  SpecArgs SpecHistory SpecClauses SpecFunctions PfFunctions.
Open Scope N_scope.

(** C50.  avg, count, max, min and sum after any distinct() calls. *)
Theorem C50_aggregates : forall E k e ds t, text E (fold_left agg_distinct ds (mk_agg k e)) = Ok t <->
  exists a, aggregate_text E k e a /\ t = in_brackets (function_word k) ((if distinct_wanted ds then lit "DISTINCT " else []) ++ a).
Proof. exact aggregate_ok. Qed.
Print Assumptions C50_aggregates.
Example C50_aggregates_ex :
  text (demo BSql) (fold_left agg_distinct [VBool false; VBool true] (mk_agg FAvg (VSeq KTuple [vs "a"; vs "t.b"]))) =
    Ok (lit "AVG(DISTINCT ""a"", ""t"".""b"")") /\
  text (demo BSql) (mk_agg FCount VNone) = Ok (lit "COUNT(*)") /\
  text (demo BSql) (mk_agg FMax (vs "*")) = Ok (lit "MAX(*)").
Proof. vm_compute. repeat split; reflexivity. Qed.
(** concat and group_concat accept the arguments columns() accepts and have its columns. *)
Theorem C50_columns : forall W args,
  match sel_step W empty_select (SColumns args []) with
  | (q, Ok _) => mk_concat W args = Ok (VConcat (s_cols q)) /\ mk_group_concat W args = Ok (VGroupConcat (s_cols q) [] VNone)
  | (_, Err e) => mk_concat W args = Err e /\ mk_group_concat W args = Err e
  end.
Proof. exact concat_columns. Qed.
Print Assumptions C50_columns.
Theorem C50_concat : forall E cols t, text E (VConcat cols) = Ok t <-> exists a, columns_text E cols a /\ t = in_brackets (lit "CONCAT") a.
Proof. exact concat_ok. Qed.
Print Assumptions C50_concat.
(** group_concat after any order_by and separator calls: the order collected as by
    order_by of a select, the last separator. *)
Theorem C50_group_concat : forall E cols H t, text E (calls gc_step (VGroupConcat cols [] VNone) H) = Ok t <->
  exists a l s, columns_text E cols a /\ clause (lit "ORDER BY ") (lit ", ") (order_text E) (s_order (calls sel_step empty_select (as_select H))) l /\
    separator_words E (List.last (separators H) VNone) s /\ t = in_brackets (lit "GROUP_CONCAT") (words (a :: l ++ s)).
Proof. exact group_concat_ok. Qed.
Print Assumptions C50_group_concat.
Example C50_group_concat_ex :
  text (demo BSql) (calls gc_step (VGroupConcat [(vs "a", VNone)] [] VNone)
    [(demoW BSql, GSeparator (vs ";")); (demoW BSql, GOrderBy [vs "b"; VSeq KTuple [vs "c"; vs "desc"]]); (demoW BSql, GSeparator (vs "-"))]) =
    Ok (lit "GROUP_CONCAT(""a"" ORDER BY ""b"", ""c"" DESC SEPARATOR '-')").
Proof. vm_compute. reflexivity. Qed.
(** convert(e, type) is convert(e).to(type); the last type is shown. *)
Theorem C50_convert : forall E e H t, text E (calls convert_to (VConvert e None) H) = Ok t <->
  exists a, arguments_text E e a /\ t = in_brackets (lit "CONVERT") (a ++ lit ", " ++ type_shown H).
Proof. exact convert_ok. Qed.
Print Assumptions C50_convert.
Theorem C50_convert_made : forall W e ty,
  (truthy ty = false -> mk_convert W e ty = Ok (calls convert_to (VConvert e None) [])) /\
  (truthy ty = true -> forall s, w_str W ty = Ok s -> mk_convert W e ty = Ok (calls convert_to (VConvert e None) [(W, ty)])).
Proof. exact convert_made. Qed.
Print Assumptions C50_convert_made.
Example C50_convert_ex : exists f, mk_convert (demoW BMySql) (vs "a") (vs "unsigned") = Ok f /\
  text (demo BMySql) f = Ok (lit "CONVERT(`a`, UNSIGNED)") /\
  text (demo BMySql) (VConvert (vs "a") None) = Ok (lit "CONVERT(`a`, None)").
Proof. eexists. split; [vm_compute; reflexivity|]. split; vm_compute; reflexivity. Qed.
