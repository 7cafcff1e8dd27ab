(** Generated by tools/gen_conformance.py from the unit tests of /repo (read as
    text).  These are tests of the model on literals, not theorems: they check
    that the model computes what the repository's own tests expect. *)
From Verif Require Import Base NumFmt Value Backend Eq Render ParseArgs Build Queries.
Open Scope N_scope.

Definition env0 (b : backend) : env :=
  MkEnv b (fun _ => None) (fun c => [c]) (fun c => [c]) (fun _ => true).
Definition NoTables : list (table val) := [].
Definition NoParts : list val := [].
Definition NoOrders : list (val * sortd) := [].
Definition NoColumns : list (val * val) := [].
Definition get {A} (d : A) (x : res A) : A := match x with Ok a => a | Err _ => d end.
Definition yes (x : res bool) : bool := match x with Ok b => b | Err _ => false end.
Definition says (x : res str) (s : str) : bool := match x with Ok t => seqb t s | Err _ => false end.
Definition same_text (x y : res str) : bool := match x, y with Ok a, Ok b => seqb a b | _, _ => false end.
Fixpoint sub_of (w s : str) : bool :=
  seqb w (firstn (List.length w) s) || match s with [] => false | _ :: r => sub_of w r end.
Definition contains (w : str) (x : res str) : bool := match x with Ok t => sub_of w t | Err _ => false end.
Definition limits_eqv (a b : limits) : res bool := Ok (limits_eqb a b).
Definition parses (x : res (list (list val))) (want : list (list val)) : bool :=
  match x with
  | Ok l => yes (list_eq (list_eq (py_eq (env0 BSql))) l want)
  | Err _ => false
  end.
Definition err_of {A} (x : res A) : option exn := match x with Ok _ => None | Err e => Some e end.
Definition exn_eqb (a b : exn) : bool :=
  match a, b with
  | EInvalidArgument, EInvalidArgument | EInvalidQuery, EInvalidQuery | ESqlPuzzle, ESqlPuzzle
  | EConfirmDelete, EConfirmDelete | EConfirmUpdate, EConfirmUpdate | ETypeError, ETypeError
  | EAttributeError, EAttributeError | EException, EException => true
  | _, _ => false
  end.
Fixpoint first_error (want : list exn) (l : list (option exn)) : bool :=
  match l with
  | [] => false
  | None :: r => first_error want r
  | Some e :: _ => existsb (exn_eqb e) want
  end.

(* tests/test_sqlpuzzle.py: test_select_test *)
Example t_sqlpuzzle_test_select_test :
  let E := env0 BSql in let W := pure_world E in
    (let x1 := mk_select W [(VInt 1)] [] in
    (is_ok (x1))
    && (says (text E (VSelect (get empty_select x1))) (lit "SELECT 1"))) = true.
Proof. vm_compute. reflexivity. Qed.

(* tests/test_sqlpuzzle.py: test_select_without_columns *)
Example t_sqlpuzzle_test_select_without_columns :
  let E := env0 BSql in let W := pure_world E in
    (let x1 := mk_select W [] [] in
    let x2 := sel_step W (get empty_select x1) (SFrom [(VStr (lit "user"))] []) in
    (is_ok (x1))
    && (is_ok ((snd x2)))
    && (says (text E (VSelect (fst x2))) (lit "SELECT * FROM ""user"""))) = true.
Proof. vm_compute. reflexivity. Qed.

(* tests/test_sqlpuzzle.py: test_select_with_columns *)
Example t_sqlpuzzle_test_select_with_columns :
  let E := env0 BSql in let W := pure_world E in
    (let x1 := mk_select W [(VStr (lit "id")); (VStr (lit "name"))] [] in
    let x2 := sel_step W (get empty_select x1) (SFrom [(VStr (lit "user"))] []) in
    (is_ok (x1))
    && (is_ok ((snd x2)))
    && (says (text E (VSelect (fst x2))) (lit "SELECT ""id"", ""name"" FROM ""user"""))) = true.
Proof. vm_compute. reflexivity. Qed.

(* tests/test_sqlpuzzle.py: test_select_from *)
Example t_sqlpuzzle_test_select_from :
  let E := env0 BSql in let W := pure_world E in
    (let x1 := mk_select_from W [(VStr (lit "user"))] [] in
    (is_ok (x1))
    && (says (text E (VSelect (get empty_select x1))) (lit "SELECT * FROM ""user"""))) = true.
Proof. vm_compute. reflexivity. Qed.

(* tests/test_sqlpuzzle.py: test_select_from_as_kwds *)
Example t_sqlpuzzle_test_select_from_as_kwds :
  let E := env0 BSql in let W := pure_world E in
    (let x1 := mk_select_from W [] [((lit "user"), (VStr (lit "u")))] in
    (is_ok (x1))
    && (says (text E (VSelect (get empty_select x1))) (lit "SELECT * FROM ""user"" AS ""u"""))) = true.
Proof. vm_compute. reflexivity. Qed.

(* tests/test_sqlpuzzle.py: test_select_from_with_more *)
Example t_sqlpuzzle_test_select_from_with_more :
  let E := env0 BSql in let W := pure_world E in
    (let x1 := mk_select_from W [(VStr (lit "user")); (VStr (lit "country"))] [] in
    (is_ok (x1))
    && (says (text E (VSelect (get empty_select x1))) (lit "SELECT * FROM ""user"", ""country"""))) = true.
Proof. vm_compute. reflexivity. Qed.

(* tests/test_sqlpuzzle.py: test_insert *)
Example t_sqlpuzzle_test_insert :
  let E := env0 BSql in let W := pure_world E in
    (let x1 := ins_step W empty_insert (IInto (VStr (lit "user"))) in
    let x2 := ins_step W (fst x1) (IValues [] [((lit "name"), (VStr (lit "Harry")))]) in
    (is_ok ((snd x1)))
    && (is_ok ((snd x2)))
    && (says (text E (VInsert (fst x2))) (lit "INSERT INTO ""user"" (""name"") VALUES ('Harry')"))) = true.
Proof. vm_compute. reflexivity. Qed.

(* tests/test_sqlpuzzle.py: test_insert_into *)
Example t_sqlpuzzle_test_insert_into :
  let E := env0 BSql in let W := pure_world E in
    (let x1 := mk_insert_into W (VStr (lit "user")) in
    let x2 := ins_step W (get empty_insert x1) (IValues [] [((lit "name"), (VStr (lit "Harry")))]) in
    (is_ok (x1))
    && (is_ok ((snd x2)))
    && (says (text E (VInsert (fst x2))) (lit "INSERT INTO ""user"" (""name"") VALUES ('Harry')"))) = true.
Proof. vm_compute. reflexivity. Qed.

(* tests/test_sqlpuzzle.py: test_update *)
Example t_sqlpuzzle_test_update :
  let E := env0 BSql in let W := pure_world E in
    (let x1 := mk_update W (VStr (lit "user")) in
    let x2 := upd_step W (get empty_update x1) (USet [] [((lit "name"), (VStr (lit "Alan")))]) in
    let x3 := upd_step W (fst x2) (UWhere [] [((lit "id"), (VInt 42))]) in
    (is_ok (x1))
    && (is_ok ((snd x2)))
    && (is_ok ((snd x3)))
    && (says (text E (VUpdate (fst x3))) (lit "UPDATE ""user"" SET ""name"" = 'Alan' WHERE ""id"" = 42"))) = true.
Proof. vm_compute. reflexivity. Qed.

(* tests/test_sqlpuzzle.py: test_delete *)
Example t_sqlpuzzle_test_delete :
  let E := env0 BSql in let W := pure_world E in
    (let x1 := mk_delete W [] in
    let x2 := del_step W (get empty_delete x1) (DFrom [(VStr (lit "user"))] []) in
    let x3 := del_step W (fst x2) (DWhere [] [((lit "id"), (VInt 42))]) in
    (is_ok (x1))
    && (is_ok ((snd x2)))
    && (is_ok ((snd x3)))
    && (says (text E (VDelete (fst x3))) (lit "DELETE FROM ""user"" WHERE ""id"" = 42"))) = true.
Proof. vm_compute. reflexivity. Qed.

(* tests/test_sqlpuzzle.py: test_delete_from *)
Example t_sqlpuzzle_test_delete_from :
  let E := env0 BSql in let W := pure_world E in
    (let x1 := mk_delete_from W [(VStr (lit "user"))] [] in
    let x2 := del_step W (get empty_delete x1) (DWhere [] [((lit "id"), (VInt 42))]) in
    (is_ok (x1))
    && (is_ok ((snd x2)))
    && (says (text E (VDelete (fst x2))) (lit "DELETE FROM ""user"" WHERE ""id"" = 42"))) = true.
Proof. vm_compute. reflexivity. Qed.

(* tests/test_sqlpuzzle.py: test_copy1 *)
Example t_sqlpuzzle_test_copy1 :
  let E := env0 BSql in let W := pure_world E in
    (let x1 := mk_select_from W [(VStr (lit "t"))] [] in
    let x2 := mk_rel RGt (VInt 1) in
    let x3 := sel_step W (get empty_select x1) (SWhere [(VStr (lit "c")); (get VNone x2)] []) in
    (is_ok (x1))
    && (is_ok (x2))
    && (is_ok ((snd x3)))
    && (same_text (text E (VSelect (fst x3))) (text E (VSelect (fst x3))))) = true.
Proof. vm_compute. reflexivity. Qed.

(* tests/test_sqlpuzzle.py: test_copy_with_custom *)
Example t_sqlpuzzle_test_copy_with_custom :
  let E := env0 BSql in let W := pure_world E in
    (let x1 := mk_select_from W [(VStr (lit "t"))] [] in
    let x2 := mk_custom W (VStr (lit "x")) in
    let x3 := sel_step W (get empty_select x1) (SWhere [(get VNone x2)] []) in
    (is_ok (x1))
    && (is_ok (x2))
    && (is_ok ((snd x3)))
    && (same_text (text E (VSelect (fst x3))) (text E (VSelect (fst x3))))) = true.
Proof. vm_compute. reflexivity. Qed.

(* tests/test_sqlpuzzle.py: test_custom_sql *)
Example t_sqlpuzzle_test_custom_sql :
  let E := env0 BSql in let W := pure_world E in
    (let x1 := mk_custom W (VStr (lit "custom")) in
    let x2 := mk_rel REq (get VNone x1) in
    let x3 := mk_custom W (VStr (lit "custom")) in
    let x4 := mk_rel RNe (get VNone x3) in
    let x5 := mk_custom W (VStr (lit "custom")) in
    let x6 := mk_rel RGt (get VNone x5) in
    let x7 := mk_custom W (VStr (lit "custom")) in
    let x8 := mk_rel RGe (get VNone x7) in
    let x9 := mk_custom W (VStr (lit "custom")) in
    let x10 := mk_rel RLt (get VNone x9) in
    let x11 := mk_custom W (VStr (lit "custom")) in
    let x12 := mk_rel RLe (get VNone x11) in
    let x13 := mk_custom W (VStr (lit "custom")) in
    let x14 := mk_rel RLike (get VNone x13) in
    let x15 := mk_custom W (VStr (lit "custom")) in
    let x16 := mk_rel RRegexp (get VNone x15) in
    let x17 := mk_custom W (VStr (lit "custom")) in
    let x18 := mk_in RIn [(get VNone x17)] in
    let x19 := mk_custom W (VStr (lit "custom")) in
    let x20 := mk_in RNotIn [(get VNone x19)] in
    let x21 := mk_custom W (VStr (lit "custom")) in
    let x22 := mk_rel RIs (get VNone x21) in
    let x23 := mk_custom W (VStr (lit "custom")) in
    let x24 := mk_rel RIsNot (get VNone x23) in
    (is_ok (x1))
    && (is_ok (x2))
    && (is_ok (x3))
    && (is_ok (x4))
    && (is_ok (x5))
    && (is_ok (x6))
    && (is_ok (x7))
    && (is_ok (x8))
    && (is_ok (x9))
    && (is_ok (x10))
    && (is_ok (x11))
    && (is_ok (x12))
    && (is_ok (x13))
    && (is_ok (x14))
    && (is_ok (x15))
    && (is_ok (x16))
    && (is_ok (x17))
    && (is_ok (x18))
    && (is_ok (x19))
    && (is_ok (x20))
    && (is_ok (x21))
    && (is_ok (x22))
    && (is_ok (x23))
    && (is_ok (x24))) = true.
Proof. vm_compute. reflexivity. Qed.

(* tests/test_sqlpuzzle.py: test_injection_it_no_reference *)
Example t_sqlpuzzle_test_injection_it_no_reference :
  let E := env0 BSql in let W := pure_world E in
    (let x1 := mk_select W [(VStr (lit "id")); (VStr (lit "name"))] [] in
    let x2 := sel_step W (get empty_select x1) (SFrom [(VStr (lit "user"))] []) in
    let x3 := mk_in RIn [(VStr (lit "valid_value")); (VStr (lit """user""id""); something_bad"))] in
    let x4 := sel_step W (fst x2) (SWhere [(VDict [((VStr (lit "something")), (get VNone x3))])] []) in
    (is_ok (x1))
    && (is_ok ((snd x2)))
    && (is_ok (x3))
    && (is_ok ((snd x4)))
    && (contains (lit """something"" IN ('valid_value', '""user""id""); something_bad')") (text E (VSelect (fst x4))))) = true.
Proof. vm_compute. reflexivity. Qed.

(* tests/backends/test_mysql.py: test_reference *)
Example t_mysql_test_reference :
  let E := env0 BMySql in let W := pure_world E in
    (let x1 := mk_select W [(VStr (lit "id"))] [] in
    let x2 := sel_step W (get empty_select x1) (SFrom [(VStr (lit "table"))] []) in
    (is_ok (x1))
    && (is_ok ((snd x2)))
    && (says (text E (VSelect (fst x2))) (lit "SELECT `id` FROM `table`"))) = true.
Proof. vm_compute. reflexivity. Qed.

(* tests/backends/test_mysql.py: test_boolean *)
Example t_mysql_test_boolean :
  let E := env0 BMySql in let W := pure_world E in
    (let x1 := mk_select_from W [(VStr (lit "table"))] [] in
    let x2 := sel_step W (get empty_select x1) (SWhere [(VDict [((VStr (lit "flag")), (VBool true))])] []) in
    (is_ok (x1))
    && (is_ok ((snd x2)))
    && (says (text E (VSelect (fst x2))) (lit "SELECT * FROM `table` WHERE `flag` = 1"))) = true.
Proof. vm_compute. reflexivity. Qed.

(* tests/backends/test_postgresql.py: test_reference *)
Example t_postgresql_test_reference :
  let E := env0 BPostgres in let W := pure_world E in
    (let x1 := mk_select W [(VStr (lit "id"))] [] in
    let x2 := sel_step W (get empty_select x1) (SFrom [(VStr (lit "table"))] []) in
    (is_ok (x1))
    && (is_ok ((snd x2)))
    && (says (text E (VSelect (fst x2))) (lit "SELECT ""id"" FROM ""table"""))) = true.
Proof. vm_compute. reflexivity. Qed.

(* tests/backends/test_postgresql.py: test_boolean *)
Example t_postgresql_test_boolean :
  let E := env0 BPostgres in let W := pure_world E in
    (let x1 := mk_select_from W [(VStr (lit "table"))] [] in
    let x2 := sel_step W (get empty_select x1) (SWhere [(VDict [((VStr (lit "flag")), (VBool true))])] []) in
    (is_ok (x1))
    && (is_ok ((snd x2)))
    && (says (text E (VSelect (fst x2))) (lit "SELECT * FROM ""table"" WHERE ""flag"" = true"))) = true.
Proof. vm_compute. reflexivity. Qed.

(* tests/backends/test_sqlite.py: test_reference *)
Example t_sqlite_test_reference :
  let E := env0 BSqlite in let W := pure_world E in
    (let x1 := mk_select W [(VStr (lit "id"))] [] in
    let x2 := sel_step W (get empty_select x1) (SFrom [(VStr (lit "table"))] []) in
    (is_ok (x1))
    && (is_ok ((snd x2)))
    && (says (text E (VSelect (fst x2))) (lit "SELECT ""id"" FROM ""table"""))) = true.
Proof. vm_compute. reflexivity. Qed.

(* tests/backends/test_sqlite.py: test_boolean *)
Example t_sqlite_test_boolean :
  let E := env0 BSqlite in let W := pure_world E in
    (let x1 := mk_select_from W [(VStr (lit "table"))] [] in
    let x2 := sel_step W (get empty_select x1) (SWhere [(VDict [((VStr (lit "flag")), (VBool true))])] []) in
    (is_ok (x1))
    && (is_ok ((snd x2)))
    && (says (text E (VSelect (fst x2))) (lit "SELECT * FROM ""table"" WHERE ""flag"" = 1"))) = true.
Proof. vm_compute. reflexivity. Qed.

(* tests/backends/test_sqlite.py: test_on_duplicate_key_update *)
Example t_sqlite_test_on_duplicate_key_update :
  let E := env0 BSqlite in let W := pure_world E in
    (let x1 := mk_insert_into W (VStr (lit "user")) in
    let x2 := ins_step W (get empty_insert x1) (IValues [] [((lit "id"), (VInt 1)); ((lit "name"), (VStr (lit "Alan")))]) in
    let x3 := ins_step W (fst x2) (IOnDup [] []) in
    (is_ok (x1))
    && (is_ok ((snd x2)))
    && (is_ok ((snd x3)))
    && (says (text E (VInsert (fst x3))) (lit "REPLACE INTO ""user"" (""id"", ""name"") VALUES (1, 'Alan')"))) = true.
Proof. vm_compute. reflexivity. Qed.

(* tests/common/test_argsparser.py: test_empty_args1 *)
Example t_argsparser_test_empty_args1 :
  let E := env0 BSql in let W := pure_world E in
    ((parses (parse_args W (MkPopts 1 1 false false) [(VInt 1)] []) [[(VInt 1)]])) = true.
Proof. vm_compute. reflexivity. Qed.

(* tests/common/test_argsparser.py: test_empty_args2 *)
Example t_argsparser_test_empty_args2 :
  let E := env0 BSql in let W := pure_world E in
    ((parses (parse_args W (MkPopts 1 1 false false) [(VInt 1); (VInt 2)] []) [[(VInt 1)]; [(VInt 2)]])) = true.
Proof. vm_compute. reflexivity. Qed.

(* tests/common/test_argsparser.py: test_empty_list *)
Example t_argsparser_test_empty_list :
  let E := env0 BSql in let W := pure_world E in
    ((parses (parse_args W (MkPopts 1 1 false false) [(VSeq KList [(VInt 1)])] []) [[(VInt 1)]])) = true.
Proof. vm_compute. reflexivity. Qed.

(* tests/common/test_argsparser.py: test_empty_tuple *)
Example t_argsparser_test_empty_tuple :
  let E := env0 BSql in let W := pure_world E in
    ((parses (parse_args W (MkPopts 1 1 false false) [(VSeq KTuple [(VInt 1)])] []) [[(VInt 1)]])) = true.
Proof. vm_compute. reflexivity. Qed.

(* tests/common/test_argsparser.py: test_empty_kwds_exception *)
Example t_argsparser_test_empty_kwds_exception :
  let E := env0 BSql in let W := pure_world E in
    ((first_error [ESqlPuzzle; EInvalidArgument; EInvalidQuery; EConfirmDelete; EConfirmUpdate] [err_of (parse_args W (MkPopts 1 1 false false) [] [((lit "arg"), (VInt 1))])])) = true.
Proof. vm_compute. reflexivity. Qed.

(* tests/common/test_argsparser.py: test_empty_dictionary_exception *)
Example t_argsparser_test_empty_dictionary_exception :
  let E := env0 BSql in let W := pure_world E in
    ((first_error [ESqlPuzzle; EInvalidArgument; EInvalidQuery; EConfirmDelete; EConfirmUpdate] [err_of (parse_args W (MkPopts 1 1 false false) [(VDict [((VStr (lit "key")), (VInt 1))])] [])])) = true.
Proof. vm_compute. reflexivity. Qed.

(* tests/common/test_argsparser.py: test_empty_too_many_exception *)
Example t_argsparser_test_empty_too_many_exception :
  let E := env0 BSql in let W := pure_world E in
    ((first_error [ESqlPuzzle; EInvalidArgument; EInvalidQuery; EConfirmDelete; EConfirmUpdate] [err_of (parse_args W (MkPopts 1 1 false false) [(VSeq KTuple [(VInt 1); (VInt 2)])] [])])) = true.
Proof. vm_compute. reflexivity. Qed.

(* tests/common/test_argsparser.py: test_min2_args2 *)
Example t_argsparser_test_min2_args2 :
  let E := env0 BSql in let W := pure_world E in
    ((parses (parse_args W (MkPopts 2 2 false false) [(VInt 1); (VInt 2)] []) [[(VInt 1); (VInt 2)]])) = true.
Proof. vm_compute. reflexivity. Qed.

(* tests/common/test_argsparser.py: test_min2_list *)
Example t_argsparser_test_min2_list :
  let E := env0 BSql in let W := pure_world E in
    ((parses (parse_args W (MkPopts 2 2 false false) [(VSeq KList [(VInt 1); (VInt 2)])] []) [[(VInt 1); (VInt 2)]])) = true.
Proof. vm_compute. reflexivity. Qed.

(* tests/common/test_argsparser.py: test_min2_tuple *)
Example t_argsparser_test_min2_tuple :
  let E := env0 BSql in let W := pure_world E in
    ((parses (parse_args W (MkPopts 2 2 false false) [(VSeq KTuple [(VInt 1); (VInt 2)])] []) [[(VInt 1); (VInt 2)]])) = true.
Proof. vm_compute. reflexivity. Qed.

(* tests/common/test_argsparser.py: test_max2_args1 *)
Example t_argsparser_test_max2_args1 :
  let E := env0 BSql in let W := pure_world E in
    ((parses (parse_args W (MkPopts 1 2 false false) [(VInt 1)] []) [[(VInt 1); VNone]])) = true.
Proof. vm_compute. reflexivity. Qed.

(* tests/common/test_argsparser.py: test_max2_args2 *)
Example t_argsparser_test_max2_args2 :
  let E := env0 BSql in let W := pure_world E in
    ((parses (parse_args W (MkPopts 1 2 false false) [(VInt 1); (VInt 2)] []) [[(VInt 1); VNone]; [(VInt 2); VNone]])) = true.
Proof. vm_compute. reflexivity. Qed.

(* tests/common/test_argsparser.py: test_max2_args3 *)
Example t_argsparser_test_max2_args3 :
  let E := env0 BSql in let W := pure_world E in
    ((parses (parse_args W (MkPopts 1 2 false false) [(VInt 1); (VInt 2); (VInt 3)] []) [[(VInt 1); VNone]; [(VInt 2); VNone]; [(VInt 3); VNone]])) = true.
Proof. vm_compute. reflexivity. Qed.

(* tests/common/test_argsparser.py: test_max2_list *)
Example t_argsparser_test_max2_list :
  let E := env0 BSql in let W := pure_world E in
    ((parses (parse_args W (MkPopts 1 2 false false) [(VSeq KList [(VInt 1); (VInt 2)]); (VInt 3)] []) [[(VInt 1); (VInt 2)]; [(VInt 3); VNone]])) = true.
Proof. vm_compute. reflexivity. Qed.

(* tests/common/test_argsparser.py: test_max2_tuple *)
Example t_argsparser_test_max2_tuple :
  let E := env0 BSql in let W := pure_world E in
    ((parses (parse_args W (MkPopts 1 2 false false) [(VSeq KTuple [(VInt 1); (VInt 2)]); (VInt 3)] []) [[(VInt 1); (VInt 2)]; [(VInt 3); VNone]])) = true.
Proof. vm_compute. reflexivity. Qed.

(* tests/common/test_argsparser.py: test_too_few_exception *)
Example t_argsparser_test_too_few_exception :
  let E := env0 BSql in let W := pure_world E in
    ((first_error [EInvalidArgument] [err_of (parse_args W (MkPopts 2 2 false false) [(VStr (lit "arg"))] [])])) = true.
Proof. vm_compute. reflexivity. Qed.

(* tests/common/test_argsparser.py: test_too_many_exception *)
Example t_argsparser_test_too_many_exception :
  let E := env0 BSql in let W := pure_world E in
    ((first_error [EInvalidArgument] [err_of (parse_args W (MkPopts 2 2 false false) [(VStr (lit "arg1")); (VStr (lit "arg2")); (VStr (lit "arg3"))] [])])) = true.
Proof. vm_compute. reflexivity. Qed.

(* tests/common/test_argsparser.py: test_dict_args *)
Example t_argsparser_test_dict_args :
  let E := env0 BSql in let W := pure_world E in
    ((parses (parse_args W (MkPopts 1 2 true false) [(VDict [((VStr (lit "key")), (VInt 1))])] []) [[(VStr (lit "key")); (VInt 1)]])) = true.
Proof. vm_compute. reflexivity. Qed.

(* tests/common/test_argsparser.py: test_dict_kwds *)
Example t_argsparser_test_dict_kwds :
  let E := env0 BSql in let W := pure_world E in
    ((parses (parse_args W (MkPopts 1 2 true false) [] [((lit "key"), (VInt 1))]) [[(VStr (lit "key")); (VInt 1)]])) = true.
Proof. vm_compute. reflexivity. Qed.

(* tests/common/test_argsparser.py: test_list_args *)
Example t_argsparser_test_list_args :
  let E := env0 BSql in let W := pure_world E in
    ((parses (parse_args W (MkPopts 1 1 false true) [(VInt 1); (VInt 2); (VInt 3)] []) [[(VInt 1)]; [(VInt 2)]; [(VInt 3)]])) = true.
Proof. vm_compute. reflexivity. Qed.

(* tests/common/test_argsparser.py: test_list_list *)
Example t_argsparser_test_list_list :
  let E := env0 BSql in let W := pure_world E in
    ((parses (parse_args W (MkPopts 1 1 false true) [(VSeq KTuple [(VInt 1); (VInt 2); (VInt 3)])] []) [[(VInt 1)]; [(VInt 2)]; [(VInt 3)]])) = true.
Proof. vm_compute. reflexivity. Qed.

(* tests/common/test_argsparser.py: test_args_and_kwds *)
Example t_argsparser_test_args_and_kwds :
  let E := env0 BSql in let W := pure_world E in
    ((parses (parse_args W (MkPopts 1 2 true false) [(VStr (lit "a"))] [((lit "b"), (VInt 2))]) [[(VStr (lit "a")); VNone]; [(VStr (lit "b")); (VInt 2)]])) = true.
Proof. vm_compute. reflexivity. Qed.

(* tests/common/test_custom.py: test_customsql_as_key_in_dict *)
Example t_custom_test_customsql_as_key_in_dict :
  let E := env0 BSql in let W := pure_world E in
    (let x1 := mk_custom W (VStr (lit "avg(col)")) in
    let x2 := mk_select W [(VDict [((get VNone x1), (VStr (lit "acol")))])] [] in
    let x3 := sel_step W (get empty_select x2) (SFrom [(VStr (lit "table"))] []) in
    (is_ok (x1))
    && (is_ok (x2))
    && (is_ok ((snd x3)))
    && (says (text E (VSelect (fst x3))) (lit "SELECT avg(col) AS ""acol"" FROM ""table"""))) = true.
Proof. vm_compute. reflexivity. Qed.

(* tests/common/test_custom.py: test_customsql_compare_to_str *)
Example t_custom_test_customsql_compare_to_str :
  let E := env0 BSql in let W := pure_world E in
    (let x1 := mk_custom W (VStr (lit "avg(col)")) in
    let x2 := mk_custom W (VStr (lit "avg(col)")) in
    let x3 := mk_custom W (VStr (lit "avg(col)")) in
    let x4 := mk_custom W (VStr (lit "avg(col)")) in
    (is_ok (x1))
    && (yes (py_eq E (get VNone x1) (VStr (lit "avg(col)"))))
    && (is_ok (x2))
    && (is_ok (x3))
    && (yes (py_eq E (get VNone x2) (get VNone x3)))
    && (is_ok (x4))
    && (negb (yes (py_eq E (get VNone x4) (VStr (lit "foo")))))) = true.
Proof. vm_compute. reflexivity. Qed.

(* tests/common/test_sqlvalue.py: test_string *)
Example t_sqlvalue_test_string :
  let E := env0 BSql in let W := pure_world E in
    ((says (text E (VSqlV (VStr (lit "Hello World!")))) (lit "'Hello World!'"))) = true.
Proof. vm_compute. reflexivity. Qed.

(* tests/common/test_sqlvalue.py: test_integer *)
Example t_sqlvalue_test_integer :
  let E := env0 BSql in let W := pure_world E in
    ((says (text E (VSqlV (VInt 42))) (lit "42"))) = true.
Proof. vm_compute. reflexivity. Qed.

(* tests/common/test_sqlvalue.py: test_long_integer *)
Example t_sqlvalue_test_long_integer :
  let E := env0 BSql in let W := pure_world E in
    ((says (text E (VSqlV (VInt 123456789012345))) (lit "123456789012345"))) = true.
Proof. vm_compute. reflexivity. Qed.

(* tests/common/test_sqlvalue.py: test_float *)
Example t_sqlvalue_test_float :
  let E := env0 BSql in let W := pure_world E in
    ((says (text E (VSqlV (VFloat (NFin false 6602277053725147 281474976710656)))) (lit "23.45600"))) = true.
Proof. vm_compute. reflexivity. Qed.

(* tests/common/test_sqlvalue.py: test_decimal *)
Example t_sqlvalue_test_decimal :
  let E := env0 BSql in let W := pure_world E in
    ((says (text E (VSqlV (VDec (NFin false 2932 125)))) (lit "23.45600"))) = true.
Proof. vm_compute. reflexivity. Qed.

(* tests/common/test_sqlvalue.py: test_boolean *)
Example t_sqlvalue_test_boolean :
  let E := env0 BSql in let W := pure_world E in
    ((says (text E (VSqlV (VBool true))) (lit "1"))) = true.
Proof. vm_compute. reflexivity. Qed.

(* tests/common/test_sqlvalue.py: test_date *)
Example t_sqlvalue_test_date :
  let E := env0 BSql in let W := pure_world E in
    ((says (text E (VSqlV (VDate (Build_date 2011 5 25)))) (lit "'2011-05-25'"))) = true.
Proof. vm_compute. reflexivity. Qed.

(* tests/common/test_sqlvalue.py: test_datetime *)
Example t_sqlvalue_test_datetime :
  let E := env0 BSql in let W := pure_world E in
    ((says (text E (VSqlV (VDatetime (Build_date 2011 5 25) (Build_time 19 33 20 0)))) (lit "'2011-05-25T19:33:20'"))) = true.
Proof. vm_compute. reflexivity. Qed.

(* tests/common/test_sqlvalue.py: test_list_with_string *)
Example t_sqlvalue_test_list_with_string :
  let E := env0 BSql in let W := pure_world E in
    ((says (text E (VSqlV (VSeq KList [(VStr (lit "a")); (VStr (lit "b")); (VStr (lit "c"))]))) (lit "('a', 'b', 'c')"))) = true.
Proof. vm_compute. reflexivity. Qed.

(* tests/common/test_sqlvalue.py: test_list_with_integer *)
Example t_sqlvalue_test_list_with_integer :
  let E := env0 BSql in let W := pure_world E in
    ((says (text E (VSqlV (VSeq KList [(VInt 12); (VInt 23); (VInt 34)]))) (lit "(12, 23, 34)"))) = true.
Proof. vm_compute. reflexivity. Qed.

(* tests/common/test_sqlvalue.py: test_empty_list *)
Example t_sqlvalue_test_empty_list :
  let E := env0 BSql in let W := pure_world E in
    ((first_error [EInvalidArgument] [err_of (text E (VSqlV (VSeq KList [])))])) = true.
Proof. vm_compute. reflexivity. Qed.

(* tests/common/test_sqlvalue.py: test_tuple_with_string *)
Example t_sqlvalue_test_tuple_with_string :
  let E := env0 BSql in let W := pure_world E in
    ((says (text E (VSqlV (VSeq KTuple [(VStr (lit "a")); (VStr (lit "b")); (VStr (lit "c"))]))) (lit "('a', 'b', 'c')"))) = true.
Proof. vm_compute. reflexivity. Qed.

(* tests/common/test_sqlvalue.py: test_tuple_with_integer *)
Example t_sqlvalue_test_tuple_with_integer :
  let E := env0 BSql in let W := pure_world E in
    ((says (text E (VSqlV (VSeq KTuple [(VInt 12); (VInt 23); (VInt 34)]))) (lit "(12, 23, 34)"))) = true.
Proof. vm_compute. reflexivity. Qed.

(* tests/common/test_sqlvalue.py: test_empty_tuple *)
Example t_sqlvalue_test_empty_tuple :
  let E := env0 BSql in let W := pure_world E in
    ((first_error [EInvalidArgument] [err_of (text E (VSqlV (VSeq KTuple [])))])) = true.
Proof. vm_compute. reflexivity. Qed.

(* tests/common/test_sqlvalue.py: test_set *)
Example t_sqlvalue_test_set :
  let E := env0 BSql in let W := pure_world E in
    ((says (text E (VSqlV (VSeq KSet [(VInt 12); (VInt 23)]))) (lit "(12, 23)"))) = true.
Proof. vm_compute. reflexivity. Qed.

(* tests/common/test_sqlvalue.py: test_empty_set *)
Example t_sqlvalue_test_empty_set :
  let E := env0 BSql in let W := pure_world E in
    ((first_error [EInvalidArgument] [err_of (text E (VSqlV (VSeq KSet [])))])) = true.
Proof. vm_compute. reflexivity. Qed.

(* tests/common/test_sqlvalue.py: test_frozen_set *)
Example t_sqlvalue_test_frozen_set :
  let E := env0 BSql in let W := pure_world E in
    ((says (text E (VSqlV (VSeq KFrozenset [(VInt 12); (VInt 23)]))) (lit "(12, 23)"))) = true.
Proof. vm_compute. reflexivity. Qed.

(* tests/common/test_sqlvalue.py: test_empty_frozen_set *)
Example t_sqlvalue_test_empty_frozen_set :
  let E := env0 BSql in let W := pure_world E in
    ((first_error [EInvalidArgument] [err_of (text E (VSqlV (VSeq KSet [])))])) = true.
Proof. vm_compute. reflexivity. Qed.

(* tests/common/test_sqlvalue.py: test_generator *)
Example t_sqlvalue_test_generator :
  let E := env0 BSql in let W := pure_world E in
    ((says (text E (VSqlV (VSeq KGen [(VInt 12); (VInt 23); (VInt 34)]))) (lit "(12, 23, 34)"))) = true.
Proof. vm_compute. reflexivity. Qed.

(* tests/common/test_sqlvalue.py: test_xrange *)
Example t_sqlvalue_test_xrange :
  let E := env0 BSql in let W := pure_world E in
    ((says (text E (VSqlV (VSeq KRange [VInt 0; VInt 1; VInt 2; VInt 3; VInt 4]))) (lit "(0, 1, 2, 3, 4)"))) = true.
Proof. vm_compute. reflexivity. Qed.

(* tests/common/test_sqlvalue.py: test_none *)
Example t_sqlvalue_test_none :
  let E := env0 BSql in let W := pure_world E in
    ((says (text E (VSqlV VNone)) (lit "NULL"))) = true.
Proof. vm_compute. reflexivity. Qed.

(* tests/common/test_sqlvalue.py: test_subselect *)
Example t_sqlvalue_test_subselect :
  let E := env0 BSql in let W := pure_world E in
    (let x1 := mk_select_from W [(VStr (lit "table"))] [] in
    (is_ok (x1))
    && (says (text E (VSqlV (VSelect (get empty_select x1)))) (lit "(SELECT * FROM ""table"")"))) = true.
Proof. vm_compute. reflexivity. Qed.

(* tests/common/test_sqlvalue.py: test_security_string *)
Example t_sqlvalue_test_security_string :
  let E := env0 BSql in let W := pure_world E in
    ((says (text E (VSqlR (VStr (lit "test")))) (lit """test"""))) = true.
Proof. vm_compute. reflexivity. Qed.

(* tests/common/test_sqlvalue.py: test_security_subselect *)
Example t_sqlvalue_test_security_subselect :
  let E := env0 BSql in let W := pure_world E in
    (let x1 := mk_select_from W [(VStr (lit "table"))] [] in
    (is_ok (x1))
    && (says (text E (VSqlR (VSelect (get empty_select x1)))) (lit "(SELECT * FROM ""table"")"))) = true.
Proof. vm_compute. reflexivity. Qed.

(* tests/common/test_sqlvalue.py: test_security_table_column *)
Example t_sqlvalue_test_security_table_column :
  let E := env0 BSql in let W := pure_world E in
    ((says (text E (VSqlR (VStr (lit "table.column")))) (lit """table"".""column"""))) = true.
Proof. vm_compute. reflexivity. Qed.

(* tests/common/test_sqlvalue.py: test_security_database_table_column *)
Example t_sqlvalue_test_security_database_table_column :
  let E := env0 BSql in let W := pure_world E in
    ((says (text E (VSqlR (VStr (lit "db.table.column")))) (lit """db"".""table"".""column"""))) = true.
Proof. vm_compute. reflexivity. Qed.

(* tests/common/test_sqlvalue.py: test_security_single_quotes *)
Example t_sqlvalue_test_security_single_quotes :
  let E := env0 BSql in let W := pure_world E in
    ((says (text E (VSqlV (VStr (lit "test'test")))) (lit "'test''test'"))) = true.
Proof. vm_compute. reflexivity. Qed.

(* tests/common/test_sqlvalue.py: test_security_quotes *)
Example t_sqlvalue_test_security_quotes :
  let E := env0 BSql in let W := pure_world E in
    ((says (text E (VSqlV (VStr (lit "test""test")))) (lit "'test""test'"))) = true.
Proof. vm_compute. reflexivity. Qed.

(* tests/common/test_sqlvalue.py: test_security_slash *)
Example t_sqlvalue_test_security_slash :
  let E := env0 BSql in let W := pure_world E in
    ((says (text E (VSqlV (VStr (lit "test\test")))) (lit "'test\\test'"))) = true.
Proof. vm_compute. reflexivity. Qed.

(* tests/common/test_sqlvalue.py: test_new_line *)
Example t_sqlvalue_test_new_line :
  let E := env0 BSql in let W := pure_world E in
    ((says (text E (VSqlV (VStr [102; 105; 114; 115; 116; 32; 108; 105; 110; 101; 10; 115; 101; 99; 111; 110; 100; 32; 108; 105; 110; 101]))) (lit "'first line\nsecond line'"))) = true.
Proof. vm_compute. reflexivity. Qed.

(* tests/common/test_sqlvalue.py: test_sqlreference_compare_to_str *)
Example t_sqlvalue_test_sqlreference_compare_to_str :
  let E := env0 BSql in let W := pure_world E in
    ((yes (py_eq E (VSqlR (VStr (lit "foo"))) (VStr (lit """foo"""))))
    && (negb (yes (py_eq E (VSqlR (VStr (lit "foo"))) (VStr (lit "foo")))))) = true.
Proof. vm_compute. reflexivity. Qed.

(* tests/common/test_sqlvalue.py: test_sqlvalue_compare_to_str *)
Example t_sqlvalue_test_sqlvalue_compare_to_str :
  let E := env0 BSql in let W := pure_world E in
    ((yes (py_eq E (VSqlV (VStr (lit "foo"))) (VStr (lit "'foo'"))))
    && (negb (yes (py_eq E (VSqlV (VStr (lit "foo"))) (VStr (lit "foo")))))) = true.
Proof. vm_compute. reflexivity. Qed.

(* tests/common/test_sqlvalue.py: test_sqlvalue_compare_to_sqlvalue *)
Example t_sqlvalue_test_sqlvalue_compare_to_sqlvalue :
  let E := env0 BSql in let W := pure_world E in
    ((yes (py_eq E (VSqlV (VStr (lit "foo"))) (VSqlV (VStr (lit "foo")))))
    && (negb (yes (py_eq E (VSqlV (VStr (lit "foo"))) (VSqlV (VStr (lit "foo1"))))))) = true.
Proof. vm_compute. reflexivity. Qed.

(* tests/queries/test_delete.py: test_simply *)
Example t_delete_test_simply :
  let E := env0 BSql in let W := pure_world E in
    (let x1 := del_step W empty_delete (DFrom [(VStr (lit "user"))] []) in
    let x2 := del_step W (fst x1) (DAllow) in
    (is_ok ((snd x1)))
    && (is_ok ((snd x2)))
    && (says (text E (VDelete (fst x2))) (lit "DELETE FROM ""user"""))) = true.
Proof. vm_compute. reflexivity. Qed.

(* tests/queries/test_delete.py: test_str *)
Example t_delete_test_str :
  let E := env0 BSql in let W := pure_world E in
    (let x1 := del_step W empty_delete (DFrom [(VStr (lit "user"))] []) in
    let x2 := del_step W (fst x1) (DWhere [] [((lit "name"), (VStr [353; 269; 345; 382]))]) in
    (is_ok ((snd x1)))
    && (is_ok ((snd x2)))
    && (says (text E (VDelete (fst x2))) [68; 69; 76; 69; 84; 69; 32; 70; 82; 79; 77; 32; 34; 117; 115; 101; 114; 34; 32; 87; 72; 69; 82; 69; 32; 34; 110; 97; 109; 101; 34; 32; 61; 32; 39; 353; 269; 345; 382; 39])) = true.
Proof. vm_compute. reflexivity. Qed.

(* tests/queries/test_delete.py: test_has_not_references *)
Example t_delete_test_has_not_references :
  let E := env0 BSql in let W := pure_world E in
    ((negb (yes (del_has W empty_delete (lit "references") VNone)))) = true.
Proof. vm_compute. reflexivity. Qed.

(* tests/queries/test_delete.py: test_has_references *)
Example t_delete_test_has_references :
  let E := env0 BSql in let W := pure_world E in
    (let x1 := del_step W empty_delete (DFrom [(VStr (lit "user"))] []) in
    (is_ok ((snd x1)))
    && (yes (del_has W (fst x1) (lit "references") VNone))
    && (yes (del_has W (fst x1) (lit "references") (VStr (lit "user"))))) = true.
Proof. vm_compute. reflexivity. Qed.

(* tests/queries/test_delete.py: test_has_not_where *)
Example t_delete_test_has_not_where :
  let E := env0 BSql in let W := pure_world E in
    ((negb (yes (del_has W empty_delete (lit "where") VNone)))) = true.
Proof. vm_compute. reflexivity. Qed.

(* tests/queries/test_delete.py: test_has_where *)
Example t_delete_test_has_where :
  let E := env0 BSql in let W := pure_world E in
    (let x1 := del_step W empty_delete (DWhere [] [((lit "id"), (VInt 1))]) in
    (is_ok ((snd x1)))
    && (yes (del_has W (fst x1) (lit "where") VNone))
    && (yes (del_has W (fst x1) (lit "where") (VStr (lit "id"))))) = true.
Proof. vm_compute. reflexivity. Qed.

(* tests/queries/test_delete.py: test_more_tables *)
Example t_delete_test_more_tables :
  let E := env0 BSql in let W := pure_world E in
    (let x1 := del_step W empty_delete (DAllow) in
    let x2 := del_step W (fst x1) (DDelete [(VStr (lit "user"))]) in
    let x3 := del_step W (fst x2) (DFrom [(VStr (lit "user")); (VStr (lit "user2"))] []) in
    (is_ok ((snd x1)))
    && (is_ok ((snd x2)))
    && (is_ok ((snd x3)))
    && (says (text E (VDelete (fst x3))) (lit "DELETE ""user"" FROM ""user"", ""user2"""))) = true.
Proof. vm_compute. reflexivity. Qed.

(* tests/queries/test_delete.py: test_more_tables_with_alias *)
Example t_delete_test_more_tables_with_alias :
  let E := env0 BSql in let W := pure_world E in
    (let x1 := del_step W empty_delete (DAllow) in
    let x2 := del_step W (fst x1) (DDelete [(VStr (lit "u"))]) in
    let x3 := del_step W (fst x2) (DFrom [(VDict [((VStr (lit "user")), (VStr (lit "u"))); ((VStr (lit "user2")), (VStr (lit "u2")))])] []) in
    (is_ok ((snd x1)))
    && (is_ok ((snd x2)))
    && (is_ok ((snd x3)))
    && (says (text E (VDelete (fst x3))) (lit "DELETE ""u"" FROM ""user"" AS ""u"", ""user2"" AS ""u2"""))) = true.
Proof. vm_compute. reflexivity. Qed.

(* tests/queries/test_delete.py: test_join *)
Example t_delete_test_join :
  let E := env0 BSql in let W := pure_world E in
    (let x1 := del_step W empty_delete (DAllow) in
    let x2 := del_step W (fst x1) (DDelete [(VStr (lit "user"))]) in
    let x3 := del_step W (fst x2) (DFrom [(VStr (lit "user"))] []) in
    let x4 := del_step W (fst x3) (DJoin J3Left (VStr (lit "role"))) in
    let x5 := del_step W (fst x4) (DOn [(VStr (lit "role.id")); (VStr (lit "user.role_id"))] []) in
    let x6 := del_step W (fst x5) (DWhere [(VStr (lit "role.name")); (VSeq KTuple [(VStr (lit "a")); (VStr (lit "b"))])] []) in
    (is_ok ((snd x1)))
    && (is_ok ((snd x2)))
    && (is_ok ((snd x3)))
    && (is_ok ((snd x4)))
    && (is_ok ((snd x5)))
    && (is_ok ((snd x6)))
    && (says (text E (VDelete (fst x6))) (lit "DELETE ""user"" FROM ""user"" LEFT JOIN ""role"" ON ""role"".""id"" = ""user"".""role_id"" WHERE ""role"".""name"" IN ('a', 'b')"))) = true.
Proof. vm_compute. reflexivity. Qed.

(* tests/queries/test_delete.py: test_where *)
Example t_delete_test_where :
  let E := env0 BSql in let W := pure_world E in
    (let x1 := del_step W empty_delete (DFrom [(VStr (lit "user"))] []) in
    let x2 := del_step W (fst x1) (DWhere [] [((lit "age"), (VInt 42))]) in
    let x3 := mk_rel RLike (VStr (lit "Harry")) in
    let x4 := del_step W (fst x2) (DWhere [(VStr (lit "name")); (get VNone x3)] []) in
    let x5 := del_step W (fst x4) (DWhere [(VDict [((VStr (lit "sex")), (VStr (lit "male")))])] []) in
    let x6 := del_step W (fst x5) (DWhere [(VSeq KTuple [(VSeq KTuple [(VStr (lit "enabled")); (VInt 1)])])] []) in
    (is_ok ((snd x1)))
    && (is_ok ((snd x2)))
    && (is_ok (x3))
    && (is_ok ((snd x4)))
    && (is_ok ((snd x5)))
    && (is_ok ((snd x6)))
    && (says (text E (VDelete (fst x6))) (lit "DELETE FROM ""user"" WHERE ""age"" = 42 AND ""name"" LIKE 'Harry' AND ""sex"" = 'male' AND ""enabled"" = 1"))) = true.
Proof. vm_compute. reflexivity. Qed.

(* tests/queries/test_delete.py: test_copy *)
Example t_delete_test_copy :
  let E := env0 BSql in let W := pure_world E in
    (let x1 := del_step W empty_delete (DFrom [(VStr (lit "user"))] []) in
    let x2 := del_step W (fst x1) (DWhere [] [((lit "id"), (VInt 42))]) in
    let x3 := del_step W (fst x2) (DWhere [] [((lit "name"), (VStr (lit "Harry")))]) in
    (is_ok ((snd x1)))
    && (is_ok ((snd x2)))
    && (is_ok ((snd x3)))
    && (says (text E (VDelete (fst x2))) (lit "DELETE FROM ""user"" WHERE ""id"" = 42"))
    && (says (text E (VDelete (fst x3))) (lit "DELETE FROM ""user"" WHERE ""id"" = 42 AND ""name"" = 'Harry'"))) = true.
Proof. vm_compute. reflexivity. Qed.

(* tests/queries/test_delete.py: test_equals *)
Example t_delete_test_equals :
  let E := env0 BSql in let W := pure_world E in
    (let x1 := del_step W empty_delete (DFrom [(VStr (lit "user"))] []) in
    let x2 := del_step W (fst x1) (DWhere [] [((lit "id"), (VInt 42))]) in
    (is_ok ((snd x1)))
    && (is_ok ((snd x2)))
    && (yes (py_eq E (VDelete (fst x2)) (VDelete (fst x2))))) = true.
Proof. vm_compute. reflexivity. Qed.

(* tests/queries/test_delete.py: test_not_equals *)
Example t_delete_test_not_equals :
  let E := env0 BSql in let W := pure_world E in
    (let x1 := del_step W empty_delete (DFrom [(VStr (lit "user"))] []) in
    let x2 := del_step W (fst x1) (DWhere [] [((lit "id"), (VInt 42))]) in
    let x3 := del_step W (fst x2) (DWhere [] [((lit "name"), (VStr (lit "Harry")))]) in
    (is_ok ((snd x1)))
    && (is_ok ((snd x2)))
    && (is_ok ((snd x3)))
    && (negb (yes (py_eq E (VDelete (fst x3)) (VDelete (fst x2)))))) = true.
Proof. vm_compute. reflexivity. Qed.

(* tests/queries/test_delete.py: test_sql_cache *)
Example t_delete_test_sql_cache :
  let E := env0 BSql in let W := pure_world E in
    (let x1 := del_step W empty_delete (DFrom [(VStr (lit "table"))] []) in
    let x2 := del_step W (fst x1) (DWhere [] [((lit "id"), (VInt 1))]) in
    let x3 := del_step W (fst x2) (DIgnore (VBool true)) in
    (is_ok ((snd x1)))
    && (is_ok ((snd x2)))
    && (is_ok ((snd x3)))
    && (says (text E (VDelete (fst x3))) (lit "DELETE IGNORE FROM ""table"" WHERE ""id"" = 1"))) = true.
Proof. vm_compute. reflexivity. Qed.

(* tests/queries/test_insert.py: test_simply *)
Example t_insert_test_simply :
  let E := env0 BSql in let W := pure_world E in
    (let x1 := ins_step W empty_insert (IInto (VStr (lit "user"))) in
    let x2 := ins_step W (fst x1) (IValues [] [((lit "name"), (VStr (lit "Alan")))]) in
    (is_ok ((snd x1)))
    && (is_ok ((snd x2)))
    && (says (text E (VInsert (fst x2))) (lit "INSERT INTO ""user"" (""name"") VALUES ('Alan')"))) = true.
Proof. vm_compute. reflexivity. Qed.

(* tests/queries/test_insert.py: test_str *)
Example t_insert_test_str :
  let E := env0 BSql in let W := pure_world E in
    (let x1 := ins_step W empty_insert (IInto (VStr (lit "user"))) in
    let x2 := ins_step W (fst x1) (IValues [] [((lit "name"), (VStr [353; 269; 345; 382]))]) in
    (is_ok ((snd x1)))
    && (is_ok ((snd x2)))
    && (says (text E (VInsert (fst x2))) [73; 78; 83; 69; 82; 84; 32; 73; 78; 84; 79; 32; 34; 117; 115; 101; 114; 34; 32; 40; 34; 110; 97; 109; 101; 34; 41; 32; 86; 65; 76; 85; 69; 83; 32; 40; 39; 353; 269; 345; 382; 39; 41])) = true.
Proof. vm_compute. reflexivity. Qed.

(* tests/queries/test_insert.py: test_has_not_tables *)
Example t_insert_test_has_not_tables :
  let E := env0 BSql in let W := pure_world E in
    ((negb (yes (ins_has W empty_insert (lit "tables") VNone)))) = true.
Proof. vm_compute. reflexivity. Qed.

(* tests/queries/test_insert.py: test_has_tables *)
Example t_insert_test_has_tables :
  let E := env0 BSql in let W := pure_world E in
    (let x1 := ins_step W empty_insert (IInto (VStr (lit "user"))) in
    (is_ok ((snd x1)))
    && (yes (ins_has W (fst x1) (lit "tables") VNone))
    && (yes (ins_has W (fst x1) (lit "tables") (VStr (lit "user"))))) = true.
Proof. vm_compute. reflexivity. Qed.

(* tests/queries/test_insert.py: test_has_not_values *)
Example t_insert_test_has_not_values :
  let E := env0 BSql in let W := pure_world E in
    ((negb (yes (ins_has W empty_insert (lit "values") VNone)))) = true.
Proof. vm_compute. reflexivity. Qed.

(* tests/queries/test_insert.py: test_has_values *)
Example t_insert_test_has_values :
  let E := env0 BSql in let W := pure_world E in
    (let x1 := ins_step W empty_insert (IValues [] [((lit "id"), (VInt 1))]) in
    (is_ok ((snd x1)))
    && (yes (ins_has W (fst x1) (lit "values") VNone))
    && (yes (ins_has W (fst x1) (lit "values") (VStr (lit "1"))))) = true.
Proof. vm_compute. reflexivity. Qed.

(* tests/queries/test_insert.py: test_on_duplicate_key_update *)
Example t_insert_test_on_duplicate_key_update :
  let E := env0 BPostgres in let W := pure_world E in
    (let x1 := ins_step W empty_insert (IInto (VStr (lit "user"))) in
    let x2 := ins_step W (fst x1) (IValues [] [((lit "id"), (VInt 1)); ((lit "name"), (VStr (lit "Alan")))]) in
    let x3 := ins_step W (fst x2) (IOnDup [(VStr (lit "id")); (VDict [((VStr (lit "name")), (VStr (lit "Alan")))])] []) in
    (is_ok ((snd x1)))
    && (is_ok ((snd x2)))
    && (is_ok ((snd x3)))
    && (says (text E (VInsert (fst x3))) (lit "INSERT INTO ""user"" (""id"", ""name"") VALUES (1, 'Alan') ON CONFLICT (""id"") DO UPDATE ""name"" = 'Alan'"))) = true.
Proof. vm_compute. reflexivity. Qed.

(* tests/queries/test_insert.py: test_on_conflict_do_update *)
Example t_insert_test_on_conflict_do_update :
  let E := env0 BMySql in let W := pure_world E in
    (let x1 := ins_step W empty_insert (IInto (VStr (lit "user"))) in
    let x2 := ins_step W (fst x1) (IValues [] [((lit "id"), (VInt 1)); ((lit "name"), (VStr (lit "Alan")))]) in
    let x3 := ins_step W (fst x2) (IOnDup [(VDict [((VStr (lit "name")), (VStr (lit "Alan")))])] []) in
    (is_ok ((snd x1)))
    && (is_ok ((snd x2)))
    && (is_ok ((snd x3)))
    && (says (text E (VInsert (fst x3))) (lit "INSERT INTO `user` (`id`, `name`) VALUES (1, 'Alan') ON DUPLICATE KEY UPDATE `name` = 'Alan'"))) = true.
Proof. vm_compute. reflexivity. Qed.

(* tests/queries/test_insert.py: test_copy *)
Example t_insert_test_copy :
  let E := env0 BSql in let W := pure_world E in
    (let x1 := ins_step W empty_insert (IInto (VStr (lit "user"))) in
    let x2 := ins_step W (fst x1) (IValues [] [((lit "id"), (VInt 1))]) in
    let x3 := ins_step W (fst x2) (IValues [] [((lit "id"), (VInt 2))]) in
    (is_ok ((snd x1)))
    && (is_ok ((snd x2)))
    && (is_ok ((snd x3)))
    && (says (text E (VInsert (fst x2))) (lit "INSERT INTO ""user"" (""id"") VALUES (1)"))
    && (says (text E (VInsert (fst x3))) (lit "INSERT INTO ""user"" (""id"") VALUES (1), (2)"))) = true.
Proof. vm_compute. reflexivity. Qed.

(* tests/queries/test_insert.py: test_equals *)
Example t_insert_test_equals :
  let E := env0 BSql in let W := pure_world E in
    (let x1 := ins_step W empty_insert (IInto (VStr (lit "user"))) in
    let x2 := ins_step W (fst x1) (IValues [] [((lit "id"), (VInt 1))]) in
    (is_ok ((snd x1)))
    && (is_ok ((snd x2)))
    && (yes (py_eq E (VInsert (fst x2)) (VInsert (fst x2))))) = true.
Proof. vm_compute. reflexivity. Qed.

(* tests/queries/test_insert.py: test_not_equals *)
Example t_insert_test_not_equals :
  let E := env0 BSql in let W := pure_world E in
    (let x1 := ins_step W empty_insert (IInto (VStr (lit "user"))) in
    let x2 := ins_step W (fst x1) (IValues [] [((lit "id"), (VInt 1))]) in
    let x3 := ins_step W (fst x2) (IValues [] [((lit "name"), (VStr (lit "Alan")))]) in
    (is_ok ((snd x1)))
    && (is_ok ((snd x2)))
    && (is_ok ((snd x3)))
    && (negb (yes (py_eq E (VInsert (fst x3)) (VInsert (fst x2)))))) = true.
Proof. vm_compute. reflexivity. Qed.

(* tests/queries/test_insert.py: test_multiple_inserts *)
Example t_insert_test_multiple_inserts :
  let E := env0 BSql in let W := pure_world E in
    (let x1 := ins_step W empty_insert (IInto (VStr (lit "table"))) in
    let x2 := ins_step W (fst x1) (IValues [] [((lit "id"), (VInt 1))]) in
    let x3 := ins_step W (fst x2) (IValues [] [((lit "id"), (VInt 2))]) in
    let x4 := ins_step W (fst x3) (IValues [] [((lit "id"), (VInt 3))]) in
    (is_ok ((snd x1)))
    && (is_ok ((snd x2)))
    && (is_ok ((snd x3)))
    && (is_ok ((snd x4)))
    && (says (text E (VInsert (fst x4))) (lit "INSERT INTO ""table"" (""id"") VALUES (1), (2), (3)"))) = true.
Proof. vm_compute. reflexivity. Qed.

(* tests/queries/test_insert.py: test_sql_cache *)
Example t_insert_test_sql_cache :
  let E := env0 BSql in let W := pure_world E in
    (let x1 := ins_step W empty_insert (IInto (VStr (lit "table"))) in
    let x2 := ins_step W (fst x1) (IValues [] [((lit "id"), (VInt 1))]) in
    let x3 := ins_step W (fst x2) (IIgnore (VBool true)) in
    (is_ok ((snd x1)))
    && (is_ok ((snd x2)))
    && (is_ok ((snd x3)))
    && (says (text E (VInsert (fst x3))) (lit "INSERT IGNORE INTO ""table"" (""id"") VALUES (1)"))) = true.
Proof. vm_compute. reflexivity. Qed.

(* tests/queries/test_select.py: test_base *)
Example t_select_test_base :
  let E := env0 BSql in let W := pure_world E in
    (let x1 := sel_step W empty_select (SColumns [(VInt 1)] []) in
    (is_ok ((snd x1)))
    && (says (text E (VSelect (fst x1))) (lit "SELECT 1"))) = true.
Proof. vm_compute. reflexivity. Qed.

(* tests/queries/test_select.py: test_simply *)
Example t_select_test_simply :
  let E := env0 BSql in let W := pure_world E in
    (let x1 := sel_step W empty_select (SColumns [(VStr (lit "id")); (VStr (lit "name"))] []) in
    let x2 := sel_step W (fst x1) (SFrom [(VStr (lit "user"))] []) in
    (is_ok ((snd x1)))
    && (is_ok ((snd x2)))
    && (says (text E (VSelect (fst x2))) (lit "SELECT ""id"", ""name"" FROM ""user"""))) = true.
Proof. vm_compute. reflexivity. Qed.

(* tests/queries/test_select.py: test_all_columns *)
Example t_select_test_all_columns :
  let E := env0 BSql in let W := pure_world E in
    (let x1 := sel_step W empty_select (SFrom [(VStr (lit "user"))] []) in
    (is_ok ((snd x1)))
    && (says (text E (VSelect (fst x1))) (lit "SELECT * FROM ""user"""))) = true.
Proof. vm_compute. reflexivity. Qed.

(* tests/queries/test_select.py: test_all_columns_from_specific_table *)
Example t_select_test_all_columns_from_specific_table :
  let E := env0 BSql in let W := pure_world E in
    (let x1 := sel_step W empty_select (SColumns [(VStr (lit "user.*"))] []) in
    let x2 := sel_step W (fst x1) (SFrom [(VStr (lit "user"))] []) in
    (is_ok ((snd x1)))
    && (is_ok ((snd x2)))
    && (says (text E (VSelect (fst x2))) (lit "SELECT ""user"".* FROM ""user"""))) = true.
Proof. vm_compute. reflexivity. Qed.

(* tests/queries/test_select.py: test_order_by *)
Example t_select_test_order_by :
  let E := env0 BSql in let W := pure_world E in
    (let x1 := sel_step W empty_select (SFrom [(VStr (lit "user"))] []) in
    let x2 := sel_step W (fst x1) (SOrderBy [(VStr (lit "id"))] []) in
    (is_ok ((snd x1)))
    && (is_ok ((snd x2)))
    && (says (text E (VSelect (fst x2))) (lit "SELECT * FROM ""user"" ORDER BY ""id"""))) = true.
Proof. vm_compute. reflexivity. Qed.

(* tests/queries/test_select.py: test_group_by *)
Example t_select_test_group_by :
  let E := env0 BSql in let W := pure_world E in
    (let x1 := sel_step W empty_select (SFrom [(VStr (lit "user"))] []) in
    let x2 := sel_step W (fst x1) (SGroupBy [(VStr (lit "id"))] []) in
    (is_ok ((snd x1)))
    && (is_ok ((snd x2)))
    && (says (text E (VSelect (fst x2))) (lit "SELECT * FROM ""user"" GROUP BY ""id"""))) = true.
Proof. vm_compute. reflexivity. Qed.

(* tests/queries/test_select.py: test_str *)
Example t_select_test_str :
  let E := env0 BSql in let W := pure_world E in
    (let x1 := sel_step W empty_select (SFrom [(VStr (lit "user"))] []) in
    let x2 := sel_step W (fst x1) (SWhere [] [((lit "name"), (VStr [353; 269; 345; 382]))]) in
    (is_ok ((snd x1)))
    && (is_ok ((snd x2)))
    && (says (text E (VSelect (fst x2))) [83; 69; 76; 69; 67; 84; 32; 42; 32; 70; 82; 79; 77; 32; 34; 117; 115; 101; 114; 34; 32; 87; 72; 69; 82; 69; 32; 34; 110; 97; 109; 101; 34; 32; 61; 32; 39; 353; 269; 345; 382; 39])) = true.
Proof. vm_compute. reflexivity. Qed.

(* tests/queries/test_select.py: test_has_not_where *)
Example t_select_test_has_not_where :
  let E := env0 BSql in let W := pure_world E in
    ((negb (yes (sel_has W empty_select (lit "where") VNone)))) = true.
Proof. vm_compute. reflexivity. Qed.

(* tests/queries/test_select.py: test_has_where *)
Example t_select_test_has_where :
  let E := env0 BSql in let W := pure_world E in
    (let x1 := sel_step W empty_select (SWhere [] [((lit "id"), (VInt 1))]) in
    (is_ok ((snd x1)))
    && (yes (sel_has W (fst x1) (lit "where") VNone))
    && (yes (sel_has W (fst x1) (lit "where") (VStr (lit "id"))))) = true.
Proof. vm_compute. reflexivity. Qed.

(* tests/queries/test_select.py: test_has_not_distinct *)
Example t_select_test_has_not_distinct :
  let E := env0 BSql in let W := pure_world E in
    (let x1 := sel_step W empty_select (SOpt ODistinctrow (VBool true)) in
    (negb (yes (sel_has W empty_select (lit "distinct") VNone)))
    && (is_ok ((snd x1)))
    && (negb (yes (sel_has W (fst x1) (lit "distinct") VNone)))) = true.
Proof. vm_compute. reflexivity. Qed.

(* tests/queries/test_select.py: test_has_distinct *)
Example t_select_test_has_distinct :
  let E := env0 BSql in let W := pure_world E in
    (let x1 := sel_step W empty_select (SOpt ODistinct (VBool true)) in
    (is_ok ((snd x1)))
    && (yes (sel_has W (fst x1) (lit "distinct") VNone))) = true.
Proof. vm_compute. reflexivity. Qed.

(* tests/queries/test_select.py: test_has_select_for_update *)
Example t_select_test_has_select_for_update :
  let E := env0 BSql in let W := pure_world E in
    (let x1 := sel_step W empty_select (SForUpdate (VBool true)) in
    (is_ok ((snd x1)))
    && (yes (sel_has W (fst x1) (lit "select_for_update") VNone))) = true.
Proof. vm_compute. reflexivity. Qed.

(* tests/queries/test_select.py: test_from *)
Example t_select_test_from :
  let E := env0 BSql in let W := pure_world E in
    (let x1 := sel_step W empty_select (SFrom [(VStr (lit "table"))] []) in
    (is_ok ((snd x1)))
    && (says (text E (VSelect (fst x1))) (lit "SELECT * FROM ""table"""))) = true.
Proof. vm_compute. reflexivity. Qed.

(* tests/queries/test_select.py: test_from_table *)
Example t_select_test_from_table :
  let E := env0 BSql in let W := pure_world E in
    (let x1 := sel_step W empty_select (SFromTable (VStr (lit "table")) VNone) in
    (is_ok ((snd x1)))
    && (says (text E (VSelect (fst x1))) (lit "SELECT * FROM ""table"""))) = true.
Proof. vm_compute. reflexivity. Qed.

(* tests/queries/test_select.py: test_from_table_with_alias *)
Example t_select_test_from_table_with_alias :
  let E := env0 BSql in let W := pure_world E in
    (let x1 := sel_step W empty_select (SFromTable (VStr (lit "table")) (VStr (lit "asTable"))) in
    (is_ok ((snd x1)))
    && (says (text E (VSelect (fst x1))) (lit "SELECT * FROM ""table"" AS ""asTable"""))) = true.
Proof. vm_compute. reflexivity. Qed.

(* tests/queries/test_select.py: test_from_tables *)
Example t_select_test_from_tables :
  let E := env0 BSql in let W := pure_world E in
    (let x1 := sel_step W empty_select (SFrom [(VStr (lit "table")); (VStr (lit "table2"))] []) in
    (is_ok ((snd x1)))
    && (says (text E (VSelect (fst x1))) (lit "SELECT * FROM ""table"", ""table2"""))) = true.
Proof. vm_compute. reflexivity. Qed.

(* tests/queries/test_select.py: test_from_tables_with_alias *)
Example t_select_test_from_tables_with_alias :
  let E := env0 BSql in let W := pure_world E in
    (let x1 := sel_step W empty_select (SFrom [(VSeq KTuple [(VStr (lit "table")); (VStr (lit "asTable"))]); (VStr (lit "table2"))] []) in
    (is_ok ((snd x1)))
    && (says (text E (VSelect (fst x1))) (lit "SELECT * FROM ""table"" AS ""asTable"", ""table2"""))) = true.
Proof. vm_compute. reflexivity. Qed.

(* tests/queries/test_select.py: test_join *)
Example t_select_test_join :
  let E := env0 BSql in let W := pure_world E in
    (let x1 := sel_step W empty_select (SFrom [(VStr (lit "user"))] []) in
    let x2 := sel_step W (fst x1) (SJoin JInner (VStr (lit "country"))) in
    let x3 := sel_step W (fst x2) (SOn [(VStr (lit "user.country_id")); (VStr (lit "country.id"))] []) in
    (is_ok ((snd x1)))
    && (is_ok ((snd x2)))
    && (is_ok ((snd x3)))
    && (says (text E (VSelect (fst x3))) (lit "SELECT * FROM ""user"" JOIN ""country"" ON ""user"".""country_id"" = ""country"".""id"""))) = true.
Proof. vm_compute. reflexivity. Qed.

(* tests/queries/test_select.py: test_inner_join *)
Example t_select_test_inner_join :
  let E := env0 BSql in let W := pure_world E in
    (let x1 := sel_step W empty_select (SFrom [(VStr (lit "user"))] []) in
    let x2 := sel_step W (fst x1) (SJoin JInner (VStr (lit "country"))) in
    let x3 := sel_step W (fst x2) (SOn [(VStr (lit "user.country_id")); (VStr (lit "country.id"))] []) in
    (is_ok ((snd x1)))
    && (is_ok ((snd x2)))
    && (is_ok ((snd x3)))
    && (says (text E (VSelect (fst x3))) (lit "SELECT * FROM ""user"" JOIN ""country"" ON ""user"".""country_id"" = ""country"".""id"""))) = true.
Proof. vm_compute. reflexivity. Qed.

(* tests/queries/test_select.py: test_left_join *)
Example t_select_test_left_join :
  let E := env0 BSql in let W := pure_world E in
    (let x1 := sel_step W empty_select (SFrom [(VStr (lit "user"))] []) in
    let x2 := sel_step W (fst x1) (SJoin JLeft (VStr (lit "country"))) in
    let x3 := sel_step W (fst x2) (SOn [(VStr (lit "user.country_id")); (VStr (lit "country.id"))] []) in
    (is_ok ((snd x1)))
    && (is_ok ((snd x2)))
    && (is_ok ((snd x3)))
    && (says (text E (VSelect (fst x3))) (lit "SELECT * FROM ""user"" LEFT JOIN ""country"" ON ""user"".""country_id"" = ""country"".""id"""))) = true.
Proof. vm_compute. reflexivity. Qed.

(* tests/queries/test_select.py: test_right_join *)
Example t_select_test_right_join :
  let E := env0 BSql in let W := pure_world E in
    (let x1 := sel_step W empty_select (SFrom [(VStr (lit "user"))] []) in
    let x2 := sel_step W (fst x1) (SJoin JRight (VStr (lit "country"))) in
    let x3 := sel_step W (fst x2) (SOn [(VStr (lit "user.country_id")); (VStr (lit "country.id"))] []) in
    (is_ok ((snd x1)))
    && (is_ok ((snd x2)))
    && (is_ok ((snd x3)))
    && (says (text E (VSelect (fst x3))) (lit "SELECT * FROM ""user"" RIGHT JOIN ""country"" ON ""user"".""country_id"" = ""country"".""id"""))) = true.
Proof. vm_compute. reflexivity. Qed.

(* tests/queries/test_select.py: test_where *)
Example t_select_test_where :
  let E := env0 BSql in let W := pure_world E in
    (let x1 := sel_step W empty_select (SFrom [(VStr (lit "user"))] []) in
    let x2 := sel_step W (fst x1) (SWhere [] [((lit "age"), (VInt 42))]) in
    let x3 := mk_rel RLike (VStr (lit "Harry")) in
    let x4 := sel_step W (fst x2) (SWhere [(VStr (lit "name")); (get VNone x3)] []) in
    let x5 := sel_step W (fst x4) (SWhere [(VDict [((VStr (lit "sex")), (VStr (lit "male")))])] []) in
    let x6 := sel_step W (fst x5) (SWhere [(VSeq KTuple [(VSeq KTuple [(VStr (lit "enabled")); (VInt 1)])])] []) in
    (is_ok ((snd x1)))
    && (is_ok ((snd x2)))
    && (is_ok (x3))
    && (is_ok ((snd x4)))
    && (is_ok ((snd x5)))
    && (is_ok ((snd x6)))
    && (says (text E (VSelect (fst x6))) (lit "SELECT * FROM ""user"" WHERE ""age"" = 42 AND ""name"" LIKE 'Harry' AND ""sex"" = 'male' AND ""enabled"" = 1"))) = true.
Proof. vm_compute. reflexivity. Qed.

(* tests/queries/test_select.py: test_having *)
Example t_select_test_having :
  let E := env0 BSql in let W := pure_world E in
    (let x1 := sel_step W empty_select (SFrom [(VStr (lit "user"))] []) in
    let x2 := sel_step W (fst x1) (SHaving [] [((lit "age"), (VInt 42))]) in
    let x3 := mk_rel RLike (VStr (lit "Harry")) in
    let x4 := sel_step W (fst x2) (SHaving [(VStr (lit "name")); (get VNone x3)] []) in
    let x5 := sel_step W (fst x4) (SHaving [(VDict [((VStr (lit "sex")), (VStr (lit "male")))])] []) in
    let x6 := sel_step W (fst x5) (SHaving [(VSeq KTuple [(VSeq KTuple [(VStr (lit "enabled")); (VInt 1)])])] []) in
    (is_ok ((snd x1)))
    && (is_ok ((snd x2)))
    && (is_ok (x3))
    && (is_ok ((snd x4)))
    && (is_ok ((snd x5)))
    && (is_ok ((snd x6)))
    && (says (text E (VSelect (fst x6))) (lit "SELECT * FROM ""user"" HAVING ""age"" = 42 AND ""name"" LIKE 'Harry' AND ""sex"" = 'male' AND ""enabled"" = 1"))) = true.
Proof. vm_compute. reflexivity. Qed.

(* tests/queries/test_select.py: test_limit *)
Example t_select_test_limit :
  let E := env0 BSql in let W := pure_world E in
    (let x1 := sel_step W empty_select (SFrom [(VStr (lit "user"))] []) in
    let x2 := sel_step W (fst x1) (SLimit (VInt 10) VNone) in
    (is_ok ((snd x1)))
    && (is_ok ((snd x2)))
    && (says (text E (VSelect (fst x2))) (lit "SELECT * FROM ""user"" LIMIT 10"))) = true.
Proof. vm_compute. reflexivity. Qed.

(* tests/queries/test_select.py: test_offset *)
Example t_select_test_offset :
  let E := env0 BSql in let W := pure_world E in
    (let x1 := sel_step W empty_select (SFrom [(VStr (lit "user"))] []) in
    let x2 := sel_step W (fst x1) (SOffset (VInt 40)) in
    (is_ok ((snd x1)))
    && (is_ok ((snd x2)))
    && (says (text E (VSelect (fst x2))) (lit "SELECT * FROM ""user"" OFFSET 40"))) = true.
Proof. vm_compute. reflexivity. Qed.

(* tests/queries/test_select.py: test_limit_with_offset *)
Example t_select_test_limit_with_offset :
  let E := env0 BSql in let W := pure_world E in
    (let x1 := sel_step W empty_select (SFrom [(VStr (lit "user"))] []) in
    let x2 := sel_step W (fst x1) (SLimit (VInt 10) (VInt 40)) in
    (is_ok ((snd x1)))
    && (is_ok ((snd x2)))
    && (says (text E (VSelect (fst x2))) (lit "SELECT * FROM ""user"" LIMIT 10 OFFSET 40"))) = true.
Proof. vm_compute. reflexivity. Qed.

(* tests/queries/test_select.py: test_limit_offset *)
Example t_select_test_limit_offset :
  let E := env0 BSql in let W := pure_world E in
    (let x1 := sel_step W empty_select (SFrom [(VStr (lit "user"))] []) in
    let x2 := sel_step W (fst x1) (SLimit (VInt 20) VNone) in
    let x3 := sel_step W (fst x2) (SOffset (VInt 30)) in
    (is_ok ((snd x1)))
    && (is_ok ((snd x2)))
    && (is_ok ((snd x3)))
    && (says (text E (VSelect (fst x3))) (lit "SELECT * FROM ""user"" LIMIT 20 OFFSET 30"))) = true.
Proof. vm_compute. reflexivity. Qed.

(* tests/queries/test_select.py: test_into_outfile *)
Example t_select_test_into_outfile :
  let E := env0 BSql in let W := pure_world E in
    (let x1 := sel_step W empty_select (SFrom [(VStr (lit "table"))] []) in
    let x2 := sel_step W (fst x1) (SOut OFile (VStr (lit "/tmp/file"))) in
    (is_ok ((snd x1)))
    && (is_ok ((snd x2)))
    && (says (text E (VSelect (fst x2))) (lit "SELECT * FROM ""table"" INTO OUTFILE '/tmp/file'"))) = true.
Proof. vm_compute. reflexivity. Qed.

(* tests/queries/test_select.py: test_fields_terminated_by *)
Example t_select_test_fields_terminated_by :
  let E := env0 BSql in let W := pure_world E in
    (let x1 := sel_step W empty_select (SFrom [(VStr (lit "table"))] []) in
    let x2 := sel_step W (fst x1) (SOut OFile (VStr (lit "/tmp/file"))) in
    let x3 := sel_step W (fst x2) (SOut OFields (VStr (lit ","))) in
    (is_ok ((snd x1)))
    && (is_ok ((snd x2)))
    && (is_ok ((snd x3)))
    && (says (text E (VSelect (fst x3))) (lit "SELECT * FROM ""table"" INTO OUTFILE '/tmp/file' FIELDS TERMINATED BY ','"))) = true.
Proof. vm_compute. reflexivity. Qed.

(* tests/queries/test_select.py: test_lines_terminated_by *)
Example t_select_test_lines_terminated_by :
  let E := env0 BSql in let W := pure_world E in
    (let x1 := sel_step W empty_select (SFrom [(VStr (lit "table"))] []) in
    let x2 := sel_step W (fst x1) (SOut OFile (VStr (lit "/tmp/file"))) in
    let x3 := sel_step W (fst x2) (SOut OLines (VStr (lit """"))) in
    (is_ok ((snd x1)))
    && (is_ok ((snd x2)))
    && (is_ok ((snd x3)))
    && (says (text E (VSelect (fst x3))) (lit "SELECT * FROM ""table"" INTO OUTFILE '/tmp/file' LINES TERMINATED BY '""'"))) = true.
Proof. vm_compute. reflexivity. Qed.

(* tests/queries/test_select.py: test_optionally_enclosed_by *)
Example t_select_test_optionally_enclosed_by :
  let E := env0 BSql in let W := pure_world E in
    (let x1 := sel_step W empty_select (SFrom [(VStr (lit "table"))] []) in
    let x2 := sel_step W (fst x1) (SOut OFile (VStr (lit "/tmp/file"))) in
    let x3 := sel_step W (fst x2) (SOut OEncl (VStr [10])) in
    (is_ok ((snd x1)))
    && (is_ok ((snd x2)))
    && (is_ok ((snd x3)))
    && (says (text E (VSelect (fst x3))) (lit "SELECT * FROM ""table"" INTO OUTFILE '/tmp/file' OPTIONALLY ENCLOSED BY '\n'"))) = true.
Proof. vm_compute. reflexivity. Qed.

(* tests/queries/test_select.py: test_all_in_one *)
Example t_select_test_all_in_one :
  let E := env0 BSql in let W := pure_world E in
    (let x1 := sel_step W empty_select (SFrom [(VStr (lit "table"))] []) in
    let x2 := sel_step W (fst x1) (SOut OFile (VStr (lit "/tmp/file"))) in
    let x3 := sel_step W (fst x2) (SOut OFields (VStr (lit ","))) in
    let x4 := sel_step W (fst x3) (SOut OLines (VStr (lit """"))) in
    let x5 := sel_step W (fst x4) (SOut OEncl (VStr [10])) in
    (is_ok ((snd x1)))
    && (is_ok ((snd x2)))
    && (is_ok ((snd x3)))
    && (is_ok ((snd x4)))
    && (is_ok ((snd x5)))
    && (says (text E (VSelect (fst x5))) (lit "SELECT * FROM ""table"" INTO OUTFILE '/tmp/file' FIELDS TERMINATED BY ',' LINES TERMINATED BY '""' OPTIONALLY ENCLOSED BY '\n'"))) = true.
Proof. vm_compute. reflexivity. Qed.

(* tests/queries/test_select.py: test_sql_cache *)
Example t_select_test_sql_cache :
  let E := env0 BSql in let W := pure_world E in
    (let x1 := sel_step W empty_select (SFrom [(VStr (lit "table"))] []) in
    let x2 := sel_step W (fst x1) (SOpt OSqlCache (VBool true)) in
    (is_ok ((snd x1)))
    && (is_ok ((snd x2)))
    && (says (text E (VSelect (fst x2))) (lit "SELECT SQL_CACHE * FROM ""table"""))) = true.
Proof. vm_compute. reflexivity. Qed.

(* tests/queries/test_select.py: test_sql_cache_off *)
Example t_select_test_sql_cache_off :
  let E := env0 BSql in let W := pure_world E in
    (let x1 := sel_step W empty_select (SFrom [(VStr (lit "table"))] []) in
    let x2 := sel_step W (fst x1) (SOpt OSqlCache (VBool true)) in
    let x3 := sel_step W (fst x2) (SOpt OSqlCache (VBool false)) in
    (is_ok ((snd x1)))
    && (is_ok ((snd x2)))
    && (is_ok ((snd x3)))
    && (says (text E (VSelect (fst x3))) (lit "SELECT * FROM ""table"""))) = true.
Proof. vm_compute. reflexivity. Qed.

(* tests/queries/test_select.py: test_sql_no_cache *)
Example t_select_test_sql_no_cache :
  let E := env0 BSql in let W := pure_world E in
    (let x1 := sel_step W empty_select (SFrom [(VStr (lit "table"))] []) in
    let x2 := sel_step W (fst x1) (SOpt OSqlNoCache (VBool true)) in
    (is_ok ((snd x1)))
    && (is_ok ((snd x2)))
    && (says (text E (VSelect (fst x2))) (lit "SELECT SQL_NO_CACHE * FROM ""table"""))) = true.
Proof. vm_compute. reflexivity. Qed.

(* tests/queries/test_select.py: test_sql_no_cache_off *)
Example t_select_test_sql_no_cache_off :
  let E := env0 BSql in let W := pure_world E in
    (let x1 := sel_step W empty_select (SFrom [(VStr (lit "table"))] []) in
    let x2 := sel_step W (fst x1) (SOpt OSqlNoCache (VBool true)) in
    let x3 := sel_step W (fst x2) (SOpt OSqlNoCache (VBool false)) in
    (is_ok ((snd x1)))
    && (is_ok ((snd x2)))
    && (is_ok ((snd x3)))
    && (says (text E (VSelect (fst x3))) (lit "SELECT * FROM ""table"""))) = true.
Proof. vm_compute. reflexivity. Qed.

(* tests/queries/test_select.py: test_all *)
Example t_select_test_all :
  let E := env0 BSql in let W := pure_world E in
    (let x1 := sel_step W empty_select (SFrom [(VStr (lit "table"))] []) in
    let x2 := sel_step W (fst x1) (SOpt OAll (VBool true)) in
    (is_ok ((snd x1)))
    && (is_ok ((snd x2)))
    && (says (text E (VSelect (fst x2))) (lit "SELECT ALL * FROM ""table"""))) = true.
Proof. vm_compute. reflexivity. Qed.

(* tests/queries/test_select.py: test_all_off *)
Example t_select_test_all_off :
  let E := env0 BSql in let W := pure_world E in
    (let x1 := sel_step W empty_select (SFrom [(VStr (lit "table"))] []) in
    let x2 := sel_step W (fst x1) (SOpt OAll (VBool true)) in
    let x3 := sel_step W (fst x2) (SOpt OAll (VBool false)) in
    (is_ok ((snd x1)))
    && (is_ok ((snd x2)))
    && (is_ok ((snd x3)))
    && (says (text E (VSelect (fst x3))) (lit "SELECT * FROM ""table"""))) = true.
Proof. vm_compute. reflexivity. Qed.

(* tests/queries/test_select.py: test_distinct *)
Example t_select_test_distinct :
  let E := env0 BSql in let W := pure_world E in
    (let x1 := sel_step W empty_select (SFrom [(VStr (lit "table"))] []) in
    let x2 := sel_step W (fst x1) (SOpt ODistinct (VBool true)) in
    (is_ok ((snd x1)))
    && (is_ok ((snd x2)))
    && (says (text E (VSelect (fst x2))) (lit "SELECT DISTINCT * FROM ""table"""))) = true.
Proof. vm_compute. reflexivity. Qed.

(* tests/queries/test_select.py: test_distinct_off *)
Example t_select_test_distinct_off :
  let E := env0 BSql in let W := pure_world E in
    (let x1 := sel_step W empty_select (SFrom [(VStr (lit "table"))] []) in
    let x2 := sel_step W (fst x1) (SOpt ODistinct (VBool true)) in
    let x3 := sel_step W (fst x2) (SOpt ODistinct (VBool false)) in
    (is_ok ((snd x1)))
    && (is_ok ((snd x2)))
    && (is_ok ((snd x3)))
    && (says (text E (VSelect (fst x3))) (lit "SELECT * FROM ""table"""))) = true.
Proof. vm_compute. reflexivity. Qed.

(* tests/queries/test_select.py: test_distinctrow *)
Example t_select_test_distinctrow :
  let E := env0 BSql in let W := pure_world E in
    (let x1 := sel_step W empty_select (SFrom [(VStr (lit "table"))] []) in
    let x2 := sel_step W (fst x1) (SOpt ODistinctrow (VBool true)) in
    (is_ok ((snd x1)))
    && (is_ok ((snd x2)))
    && (says (text E (VSelect (fst x2))) (lit "SELECT DISTINCTROW * FROM ""table"""))) = true.
Proof. vm_compute. reflexivity. Qed.

(* tests/queries/test_select.py: test_distinctrow_off *)
Example t_select_test_distinctrow_off :
  let E := env0 BSql in let W := pure_world E in
    (let x1 := sel_step W empty_select (SFrom [(VStr (lit "table"))] []) in
    let x2 := sel_step W (fst x1) (SOpt ODistinctrow (VBool true)) in
    let x3 := sel_step W (fst x2) (SOpt ODistinctrow (VBool false)) in
    (is_ok ((snd x1)))
    && (is_ok ((snd x2)))
    && (is_ok ((snd x3)))
    && (says (text E (VSelect (fst x3))) (lit "SELECT * FROM ""table"""))) = true.
Proof. vm_compute. reflexivity. Qed.

(* tests/queries/test_select.py: test_sql_small_result *)
Example t_select_test_sql_small_result :
  let E := env0 BSql in let W := pure_world E in
    (let x1 := sel_step W empty_select (SFrom [(VStr (lit "table"))] []) in
    let x2 := sel_step W (fst x1) (SOpt OSmall (VBool true)) in
    (is_ok ((snd x1)))
    && (is_ok ((snd x2)))
    && (says (text E (VSelect (fst x2))) (lit "SELECT SQL_SMALL_RESULT * FROM ""table"""))) = true.
Proof. vm_compute. reflexivity. Qed.

(* tests/queries/test_select.py: test_sql_small_result_off *)
Example t_select_test_sql_small_result_off :
  let E := env0 BSql in let W := pure_world E in
    (let x1 := sel_step W empty_select (SFrom [(VStr (lit "table"))] []) in
    let x2 := sel_step W (fst x1) (SOpt OSmall (VBool true)) in
    let x3 := sel_step W (fst x2) (SOpt OSmall (VBool false)) in
    (is_ok ((snd x1)))
    && (is_ok ((snd x2)))
    && (is_ok ((snd x3)))
    && (says (text E (VSelect (fst x3))) (lit "SELECT * FROM ""table"""))) = true.
Proof. vm_compute. reflexivity. Qed.

(* tests/queries/test_select.py: test_sql_big_result *)
Example t_select_test_sql_big_result :
  let E := env0 BSql in let W := pure_world E in
    (let x1 := sel_step W empty_select (SFrom [(VStr (lit "table"))] []) in
    let x2 := sel_step W (fst x1) (SOpt OBig (VBool true)) in
    (is_ok ((snd x1)))
    && (is_ok ((snd x2)))
    && (says (text E (VSelect (fst x2))) (lit "SELECT SQL_BIG_RESULT * FROM ""table"""))) = true.
Proof. vm_compute. reflexivity. Qed.

(* tests/queries/test_select.py: test_sql_big_result_off *)
Example t_select_test_sql_big_result_off :
  let E := env0 BSql in let W := pure_world E in
    (let x1 := sel_step W empty_select (SFrom [(VStr (lit "table"))] []) in
    let x2 := sel_step W (fst x1) (SOpt OBig (VBool true)) in
    let x3 := sel_step W (fst x2) (SOpt OBig (VBool false)) in
    (is_ok ((snd x1)))
    && (is_ok ((snd x2)))
    && (is_ok ((snd x3)))
    && (says (text E (VSelect (fst x3))) (lit "SELECT * FROM ""table"""))) = true.
Proof. vm_compute. reflexivity. Qed.

(* tests/queries/test_select.py: test_sql_buffer_result *)
Example t_select_test_sql_buffer_result :
  let E := env0 BSql in let W := pure_world E in
    (let x1 := sel_step W empty_select (SFrom [(VStr (lit "table"))] []) in
    let x2 := sel_step W (fst x1) (SOpt OBuffer (VBool true)) in
    (is_ok ((snd x1)))
    && (is_ok ((snd x2)))
    && (says (text E (VSelect (fst x2))) (lit "SELECT SQL_BUFFER_RESULT * FROM ""table"""))) = true.
Proof. vm_compute. reflexivity. Qed.

(* tests/queries/test_select.py: test_sql_buffer_result_off *)
Example t_select_test_sql_buffer_result_off :
  let E := env0 BSql in let W := pure_world E in
    (let x1 := sel_step W empty_select (SFrom [(VStr (lit "table"))] []) in
    let x2 := sel_step W (fst x1) (SOpt OBuffer (VBool true)) in
    let x3 := sel_step W (fst x2) (SOpt OBuffer (VBool false)) in
    (is_ok ((snd x1)))
    && (is_ok ((snd x2)))
    && (is_ok ((snd x3)))
    && (says (text E (VSelect (fst x3))) (lit "SELECT * FROM ""table"""))) = true.
Proof. vm_compute. reflexivity. Qed.

(* tests/queries/test_select.py: test_sql_calc_found_rows *)
Example t_select_test_sql_calc_found_rows :
  let E := env0 BSql in let W := pure_world E in
    (let x1 := sel_step W empty_select (SFrom [(VStr (lit "table"))] []) in
    let x2 := sel_step W (fst x1) (SOpt OCalc (VBool true)) in
    (is_ok ((snd x1)))
    && (is_ok ((snd x2)))
    && (says (text E (VSelect (fst x2))) (lit "SELECT SQL_CALC_FOUND_ROWS * FROM ""table"""))) = true.
Proof. vm_compute. reflexivity. Qed.

(* tests/queries/test_select.py: test_sql_calc_found_rows_off *)
Example t_select_test_sql_calc_found_rows_off :
  let E := env0 BSql in let W := pure_world E in
    (let x1 := sel_step W empty_select (SFrom [(VStr (lit "table"))] []) in
    let x2 := sel_step W (fst x1) (SOpt OCalc (VBool true)) in
    let x3 := sel_step W (fst x2) (SOpt OCalc (VBool false)) in
    (is_ok ((snd x1)))
    && (is_ok ((snd x2)))
    && (is_ok ((snd x3)))
    && (says (text E (VSelect (fst x3))) (lit "SELECT * FROM ""table"""))) = true.
Proof. vm_compute. reflexivity. Qed.

(* tests/queries/test_select.py: test_straight_join *)
Example t_select_test_straight_join :
  let E := env0 BSql in let W := pure_world E in
    (let x1 := sel_step W empty_select (SFrom [(VStr (lit "table"))] []) in
    let x2 := sel_step W (fst x1) (SOpt OStraight (VBool true)) in
    (is_ok ((snd x1)))
    && (is_ok ((snd x2)))
    && (says (text E (VSelect (fst x2))) (lit "SELECT STRAIGHT_JOIN * FROM ""table"""))) = true.
Proof. vm_compute. reflexivity. Qed.

(* tests/queries/test_select.py: test_straight_join_off *)
Example t_select_test_straight_join_off :
  let E := env0 BSql in let W := pure_world E in
    (let x1 := sel_step W empty_select (SFrom [(VStr (lit "table"))] []) in
    let x2 := sel_step W (fst x1) (SOpt OStraight (VBool true)) in
    let x3 := sel_step W (fst x2) (SOpt OStraight (VBool false)) in
    (is_ok ((snd x1)))
    && (is_ok ((snd x2)))
    && (is_ok ((snd x3)))
    && (says (text E (VSelect (fst x3))) (lit "SELECT * FROM ""table"""))) = true.
Proof. vm_compute. reflexivity. Qed.

(* tests/queries/test_select.py: test_high_priority *)
Example t_select_test_high_priority :
  let E := env0 BSql in let W := pure_world E in
    (let x1 := sel_step W empty_select (SFrom [(VStr (lit "table"))] []) in
    let x2 := sel_step W (fst x1) (SOpt OHigh (VBool true)) in
    (is_ok ((snd x1)))
    && (is_ok ((snd x2)))
    && (says (text E (VSelect (fst x2))) (lit "SELECT HIGH_PRIORITY * FROM ""table"""))) = true.
Proof. vm_compute. reflexivity. Qed.

(* tests/queries/test_select.py: test_high_priority_off *)
Example t_select_test_high_priority_off :
  let E := env0 BSql in let W := pure_world E in
    (let x1 := sel_step W empty_select (SFrom [(VStr (lit "table"))] []) in
    let x2 := sel_step W (fst x1) (SOpt OHigh (VBool true)) in
    let x3 := sel_step W (fst x2) (SOpt OHigh (VBool false)) in
    (is_ok ((snd x1)))
    && (is_ok ((snd x2)))
    && (is_ok ((snd x3)))
    && (says (text E (VSelect (fst x3))) (lit "SELECT * FROM ""table"""))) = true.
Proof. vm_compute. reflexivity. Qed.

(* tests/queries/test_select.py: test_more_options *)
Example t_select_test_more_options :
  let E := env0 BSql in let W := pure_world E in
    (let x1 := sel_step W empty_select (SFrom [(VStr (lit "table"))] []) in
    let x2 := sel_step W (fst x1) (SOpt ODistinct (VBool true)) in
    let x3 := sel_step W (fst x2) (SOpt OCalc (VBool true)) in
    let x4 := sel_step W (fst x3) (SOpt OSqlNoCache (VBool true)) in
    (is_ok ((snd x1)))
    && (is_ok ((snd x2)))
    && (is_ok ((snd x3)))
    && (is_ok ((snd x4)))
    && (says (text E (VSelect (fst x4))) (lit "SELECT DISTINCT SQL_CALC_FOUND_ROWS SQL_NO_CACHE * FROM ""table"""))) = true.
Proof. vm_compute. reflexivity. Qed.

(* tests/queries/test_select.py: test_select_for_update *)
Example t_select_test_select_for_update :
  let E := env0 BSql in let W := pure_world E in
    (let x1 := sel_step W empty_select (SFrom [(VStr (lit "table"))] []) in
    let x2 := sel_step W (fst x1) (SForUpdate (VBool true)) in
    (is_ok ((snd x1)))
    && (is_ok ((snd x2)))
    && (says (text E (VSelect (fst x2))) (lit "SELECT * FROM ""table"" FOR UPDATE"))) = true.
Proof. vm_compute. reflexivity. Qed.

(* tests/queries/test_select.py: test_union *)
Example t_select_test_union :
  let E := env0 BSql in let W := pure_world E in
    (let x1 := sel_step W empty_select (SFrom [(VStr (lit "table"))] []) in
    let x2 := py_binop OpOr (VSelect (fst x1)) (VSelect (fst x1)) in
    (is_ok ((snd x1)))
    && (is_ok (x2))
    && (says (text E (get VNone x2)) (lit "SELECT * FROM ""table"" UNION SELECT * FROM ""table"""))) = true.
Proof. vm_compute. reflexivity. Qed.

(* tests/queries/test_select.py: test_union_all *)
Example t_select_test_union_all :
  let E := env0 BSql in let W := pure_world E in
    (let x1 := sel_step W empty_select (SFrom [(VStr (lit "table"))] []) in
    let x2 := py_binop OpAnd (VSelect (fst x1)) (VSelect (fst x1)) in
    (is_ok ((snd x1)))
    && (is_ok (x2))
    && (says (text E (get VNone x2)) (lit "SELECT * FROM ""table"" UNION ALL SELECT * FROM ""table"""))) = true.
Proof. vm_compute. reflexivity. Qed.

(* tests/queries/test_select.py: test_subselect_in_columns *)
Example t_select_test_subselect_in_columns :
  let E := env0 BSql in let W := pure_world E in
    (let x1 := mk_select W [(VStr (lit "col"))] [] in
    let x2 := sel_step W (get empty_select x1) (SFrom [(VStr (lit "tab"))] []) in
    let x3 := sel_step W empty_select (SColumns [(VSeq KTuple [(VSelect (fst x2)); (VStr (lit "c"))])] []) in
    let x4 := sel_step W (fst x3) (SFrom [(VStr (lit "tab"))] []) in
    (is_ok (x1))
    && (is_ok ((snd x2)))
    && (is_ok ((snd x3)))
    && (is_ok ((snd x4)))
    && (says (text E (VSelect (fst x4))) (lit "SELECT (SELECT ""col"" FROM ""tab"") AS ""c"" FROM ""tab"""))) = true.
Proof. vm_compute. reflexivity. Qed.

(* tests/queries/test_select.py: test_subselect_in_columns_by_dictionary *)
Example t_select_test_subselect_in_columns_by_dictionary :
  let E := env0 BSql in let W := pure_world E in
    (let x1 := mk_select W [(VStr (lit "col"))] [] in
    let x2 := sel_step W (get empty_select x1) (SFrom [(VStr (lit "tab"))] []) in
    let x3 := sel_step W empty_select (SColumns [(VDict [((VSelect (fst x2)), (VStr (lit "c")))])] []) in
    let x4 := sel_step W (fst x3) (SFrom [(VStr (lit "tab"))] []) in
    (is_ok (x1))
    && (is_ok ((snd x2)))
    && (is_ok ((snd x3)))
    && (is_ok ((snd x4)))
    && (says (text E (VSelect (fst x4))) (lit "SELECT (SELECT ""col"" FROM ""tab"") AS ""c"" FROM ""tab"""))) = true.
Proof. vm_compute. reflexivity. Qed.

(* tests/queries/test_select.py: test_subselect_in_tables *)
Example t_select_test_subselect_in_tables :
  let E := env0 BSql in let W := pure_world E in
    (let x1 := mk_select W [(VStr (lit "col"))] [] in
    let x2 := sel_step W (get empty_select x1) (SFrom [(VStr (lit "tab"))] []) in
    let x3 := sel_step W empty_select (SFrom [(VSeq KTuple [(VSelect (fst x2)); (VStr (lit "t"))])] []) in
    (is_ok (x1))
    && (is_ok ((snd x2)))
    && (is_ok ((snd x3)))
    && (says (text E (VSelect (fst x3))) (lit "SELECT * FROM (SELECT ""col"" FROM ""tab"") AS ""t"""))) = true.
Proof. vm_compute. reflexivity. Qed.

(* tests/queries/test_select.py: test_subselect_in_condition *)
Example t_select_test_subselect_in_condition :
  let E := env0 BSql in let W := pure_world E in
    (let x1 := mk_select W [(VStr (lit "col"))] [] in
    let x2 := sel_step W (get empty_select x1) (SFrom [(VStr (lit "tab"))] []) in
    let x3 := sel_step W empty_select (SFrom [(VStr (lit "tab"))] []) in
    let x4 := mk_rel RLe (VInt 42) in
    let x5 := sel_step W (fst x3) (SWhere [(VSelect (fst x2)); (get VNone x4)] []) in
    (is_ok (x1))
    && (is_ok ((snd x2)))
    && (is_ok ((snd x3)))
    && (is_ok (x4))
    && (is_ok ((snd x5)))
    && (says (text E (VSelect (fst x5))) (lit "SELECT * FROM ""tab"" WHERE (SELECT ""col"" FROM ""tab"") <= 42"))) = true.
Proof. vm_compute. reflexivity. Qed.

(* tests/queries/test_select.py: test_subselect_reference *)
Example t_select_test_subselect_reference :
  let E := env0 BSql in let W := pure_world E in
    (let x1 := mk_select W [(VStr (lit "col"))] [] in
    let x2 := sel_step W (get empty_select x1) (SFrom [(VStr (lit "t1"))] []) in
    let x3 := sel_step W (fst x2) (SWhere [(VStr (lit "t1.a")); (VStr (lit """t2"".a"))] []) in
    let x4 := sel_step W empty_select (SColumns [(VSelect (fst x3))] []) in
    let x5 := sel_step W (fst x4) (SFrom [(VStr (lit "t2"))] []) in
    (is_ok (x1))
    && (is_ok ((snd x2)))
    && (is_ok ((snd x3)))
    && (is_ok ((snd x4)))
    && (is_ok ((snd x5)))
    && (says (text E (VSelect (fst x5))) (lit "SELECT (SELECT ""col"" FROM ""t1"" WHERE ""t1"".""a"" = ""t2"".""a"") FROM ""t2"""))) = true.
Proof. vm_compute. reflexivity. Qed.

(* tests/queries/test_select.py: test_copy *)
Example t_select_test_copy :
  let E := env0 BSql in let W := pure_world E in
    (let x1 := sel_step W empty_select (SFrom [(VStr (lit "user"))] []) in
    let x2 := sel_step W (fst x1) (SWhere [] [((lit "name"), (VStr (lit "Alan")))]) in
    let x3 := sel_step W (fst x2) (SLimit (VInt 10) VNone) in
    (is_ok ((snd x1)))
    && (is_ok ((snd x2)))
    && (is_ok ((snd x3)))
    && (says (text E (VSelect (fst x2))) (lit "SELECT * FROM ""user"" WHERE ""name"" = 'Alan'"))
    && (says (text E (VSelect (fst x3))) (lit "SELECT * FROM ""user"" WHERE ""name"" = 'Alan' LIMIT 10"))) = true.
Proof. vm_compute. reflexivity. Qed.

(* tests/queries/test_select.py: test_equals *)
Example t_select_test_equals :
  let E := env0 BSql in let W := pure_world E in
    (let x1 := sel_step W empty_select (SFrom [(VStr (lit "user"))] []) in
    let x2 := sel_step W (fst x1) (SWhere [] [((lit "name"), (VStr (lit "Alan")))]) in
    (is_ok ((snd x1)))
    && (is_ok ((snd x2)))
    && (same_text (text E (VSelect (fst x2))) (text E (VSelect (fst x2))))) = true.
Proof. vm_compute. reflexivity. Qed.

(* tests/queries/test_select.py: test_not_equals *)
Example t_select_test_not_equals :
  let E := env0 BSql in let W := pure_world E in
    (let x1 := sel_step W empty_select (SFrom [(VStr (lit "user"))] []) in
    let x2 := sel_step W (fst x1) (SWhere [] [((lit "name"), (VStr (lit "Alan")))]) in
    let x3 := sel_step W (fst x2) (SLimit (VInt 10) VNone) in
    (is_ok ((snd x1)))
    && (is_ok ((snd x2)))
    && (is_ok ((snd x3)))
    && (negb (yes (py_eq E (VSelect (fst x3)) (VSelect (fst x2)))))) = true.
Proof. vm_compute. reflexivity. Qed.

(* tests/queries/test_union.py: test_union *)
Example t_union_test_union :
  let E := env0 BSql in let W := pure_world E in
    (let x1 := sel_step W empty_select (SFrom [VStr (lit "t1")] []) in
    let x2 := sel_step W empty_select (SFrom [VStr (lit "t2")] []) in
    let x3 := py_binop OpOr (VSelect (fst x1)) (VSelect (fst x2)) in
    (is_ok ((snd x1)))
    && (is_ok ((snd x2)))
    && (is_ok (x3))
    && (says (text E (get VNone x3)) (lit "SELECT * FROM ""t1"" UNION SELECT * FROM ""t2"""))) = true.
Proof. vm_compute. reflexivity. Qed.

(* tests/queries/test_union.py: test_union_all *)
Example t_union_test_union_all :
  let E := env0 BSql in let W := pure_world E in
    (let x1 := sel_step W empty_select (SFrom [VStr (lit "t1")] []) in
    let x2 := sel_step W empty_select (SFrom [VStr (lit "t2")] []) in
    let x3 := py_binop OpAnd (VSelect (fst x1)) (VSelect (fst x2)) in
    (is_ok ((snd x1)))
    && (is_ok ((snd x2)))
    && (is_ok (x3))
    && (says (text E (get VNone x3)) (lit "SELECT * FROM ""t1"" UNION ALL SELECT * FROM ""t2"""))) = true.
Proof. vm_compute. reflexivity. Qed.

(* tests/queries/test_union.py: test_combine *)
Example t_union_test_combine :
  let E := env0 BSql in let W := pure_world E in
    (let x1 := sel_step W empty_select (SFrom [VStr (lit "t1")] []) in
    let x2 := sel_step W empty_select (SFrom [VStr (lit "t2")] []) in
    let x3 := py_binop OpAnd (VSelect (fst x1)) (VSelect (fst x2)) in
    let x4 := py_binop OpOr (get VNone x3) (VSelect (fst x1)) in
    (is_ok ((snd x1)))
    && (is_ok ((snd x2)))
    && (is_ok (x3))
    && (is_ok (x4))
    && (says (text E (get VNone x4)) (lit "SELECT * FROM ""t1"" UNION ALL SELECT * FROM ""t2"" UNION SELECT * FROM ""t1"""))) = true.
Proof. vm_compute. reflexivity. Qed.

(* tests/queries/test_union.py: test_subselect_in_column_as_union *)
Example t_union_test_subselect_in_column_as_union :
  let E := env0 BSql in let W := pure_world E in
    (let x1 := sel_step W empty_select (SFrom [VStr (lit "t1")] []) in
    let x2 := sel_step W empty_select (SFrom [VStr (lit "t2")] []) in
    let x3 := py_binop OpAnd (VSelect (fst x1)) (VSelect (fst x2)) in
    let x4 := mk_select W [(get VNone x3)] [] in
    let x5 := sel_step W (get empty_select x4) (SFrom [(VStr (lit "t"))] []) in
    (is_ok ((snd x1)))
    && (is_ok ((snd x2)))
    && (is_ok (x3))
    && (is_ok (x4))
    && (is_ok ((snd x5)))
    && (says (text E (VSelect (fst x5))) (lit "SELECT (SELECT * FROM ""t1"" UNION ALL SELECT * FROM ""t2"") FROM ""t"""))) = true.
Proof. vm_compute. reflexivity. Qed.

(* tests/queries/test_union.py: test_subselect_in_table_as_union *)
Example t_union_test_subselect_in_table_as_union :
  let E := env0 BSql in let W := pure_world E in
    (let x1 := sel_step W empty_select (SFrom [VStr (lit "t1")] []) in
    let x2 := sel_step W empty_select (SFrom [VStr (lit "t2")] []) in
    let x3 := py_binop OpOr (VSelect (fst x1)) (VSelect (fst x2)) in
    let x4 := mk_select_from W [(get VNone x3)] [] in
    (is_ok ((snd x1)))
    && (is_ok ((snd x2)))
    && (is_ok (x3))
    && (is_ok (x4))
    && (says (text E (VSelect (get empty_select x4))) (lit "SELECT * FROM (SELECT * FROM ""t1"" UNION SELECT * FROM ""t2"")"))) = true.
Proof. vm_compute. reflexivity. Qed.

(* tests/queries/test_union.py: test_equals *)
Example t_union_test_equals :
  let E := env0 BSql in let W := pure_world E in
    (let x1 := sel_step W empty_select (SFrom [VStr (lit "t1")] []) in
    let x2 := sel_step W empty_select (SFrom [VStr (lit "t2")] []) in
    let x3 := py_binop OpAnd (VSelect (fst x1)) (VSelect (fst x2)) in
    (is_ok ((snd x1)))
    && (is_ok ((snd x2)))
    && (is_ok (x3))
    && (same_text (text E (get VNone x3)) (text E (get VNone x3)))) = true.
Proof. vm_compute. reflexivity. Qed.

(* tests/queries/test_update.py: test_simply *)
Example t_update_test_simply :
  let E := env0 BSql in let W := pure_world E in
    (let x1 := upd_step W empty_update (UTable (VStr (lit "user"))) in
    let x2 := upd_step W (fst x1) (USet [] [((lit "name"), (VStr (lit "Alan")))]) in
    let x3 := upd_step W (fst x2) (UAllow) in
    (is_ok ((snd x1)))
    && (is_ok ((snd x2)))
    && (is_ok ((snd x3)))
    && (says (text E (VUpdate (fst x3))) (lit "UPDATE ""user"" SET ""name"" = 'Alan'"))) = true.
Proof. vm_compute. reflexivity. Qed.

(* tests/queries/test_update.py: test_str *)
Example t_update_test_str :
  let E := env0 BSql in let W := pure_world E in
    (let x1 := upd_step W empty_update (UTable (VStr (lit "user"))) in
    let x2 := upd_step W (fst x1) (USet [] [((lit "name"), (VStr [353; 269; 345; 382]))]) in
    let x3 := upd_step W (fst x2) (UAllow) in
    (is_ok ((snd x1)))
    && (is_ok ((snd x2)))
    && (is_ok ((snd x3)))
    && (says (text E (VUpdate (fst x3))) [85; 80; 68; 65; 84; 69; 32; 34; 117; 115; 101; 114; 34; 32; 83; 69; 84; 32; 34; 110; 97; 109; 101; 34; 32; 61; 32; 39; 353; 269; 345; 382; 39])) = true.
Proof. vm_compute. reflexivity. Qed.

(* tests/queries/test_update.py: test_where *)
Example t_update_test_where :
  let E := env0 BSql in let W := pure_world E in
    (let x1 := upd_step W empty_update (UTable (VStr (lit "user"))) in
    let x2 := upd_step W (fst x1) (USet [] [((lit "name"), (VStr (lit "Alan")))]) in
    let x3 := upd_step W (fst x2) (UWhere [] [((lit "age"), (VInt 42))]) in
    let x4 := mk_rel RLike (VStr (lit "Harry")) in
    let x5 := upd_step W (fst x3) (UWhere [(VStr (lit "name")); (get VNone x4)] []) in
    let x6 := upd_step W (fst x5) (UWhere [(VDict [((VStr (lit "sex")), (VStr (lit "male")))])] []) in
    let x7 := upd_step W (fst x6) (UWhere [(VSeq KTuple [(VSeq KTuple [(VStr (lit "enabled")); (VInt 1)])])] []) in
    (is_ok ((snd x1)))
    && (is_ok ((snd x2)))
    && (is_ok ((snd x3)))
    && (is_ok (x4))
    && (is_ok ((snd x5)))
    && (is_ok ((snd x6)))
    && (is_ok ((snd x7)))
    && (says (text E (VUpdate (fst x7))) (lit "UPDATE ""user"" SET ""name"" = 'Alan' WHERE ""age"" = 42 AND ""name"" LIKE 'Harry' AND ""sex"" = 'male' AND ""enabled"" = 1"))) = true.
Proof. vm_compute. reflexivity. Qed.

(* tests/queries/test_update.py: test_copy *)
Example t_update_test_copy :
  let E := env0 BSql in let W := pure_world E in
    (let x1 := upd_step W empty_update (UTable (VStr (lit "user"))) in
    let x2 := upd_step W (fst x1) (USet [] [((lit "name"), (VStr (lit "Alan")))]) in
    let x3 := upd_step W (fst x2) (UWhere [] [((lit "id"), (VInt 42))]) in
    let x4 := upd_step W (fst x3) (USet [] [((lit "age"), (VInt 24))]) in
    (is_ok ((snd x1)))
    && (is_ok ((snd x2)))
    && (is_ok ((snd x3)))
    && (is_ok ((snd x4)))
    && (says (text E (VUpdate (fst x3))) (lit "UPDATE ""user"" SET ""name"" = 'Alan' WHERE ""id"" = 42"))
    && (says (text E (VUpdate (fst x4))) (lit "UPDATE ""user"" SET ""name"" = 'Alan', ""age"" = 24 WHERE ""id"" = 42"))) = true.
Proof. vm_compute. reflexivity. Qed.

(* tests/queries/test_update.py: test_equals *)
Example t_update_test_equals :
  let E := env0 BSql in let W := pure_world E in
    (let x1 := upd_step W empty_update (UTable (VStr (lit "user"))) in
    let x2 := upd_step W (fst x1) (USet [] [((lit "name"), (VStr (lit "Alan")))]) in
    let x3 := upd_step W (fst x2) (UWhere [] [((lit "id"), (VInt 42))]) in
    (is_ok ((snd x1)))
    && (is_ok ((snd x2)))
    && (is_ok ((snd x3)))
    && (yes (py_eq E (VUpdate (fst x3)) (VUpdate (fst x3))))) = true.
Proof. vm_compute. reflexivity. Qed.

(* tests/queries/test_update.py: test_not_equals *)
Example t_update_test_not_equals :
  let E := env0 BSql in let W := pure_world E in
    (let x1 := upd_step W empty_update (UTable (VStr (lit "user"))) in
    let x2 := upd_step W (fst x1) (USet [] [((lit "name"), (VStr (lit "Alan")))]) in
    let x3 := upd_step W (fst x2) (UWhere [] [((lit "id"), (VInt 42))]) in
    let x4 := upd_step W (fst x3) (USet [] [((lit "age"), (VInt 24))]) in
    (is_ok ((snd x1)))
    && (is_ok ((snd x2)))
    && (is_ok ((snd x3)))
    && (is_ok ((snd x4)))
    && (negb (yes (py_eq E (VUpdate (fst x4)) (VUpdate (fst x3)))))) = true.
Proof. vm_compute. reflexivity. Qed.

(* tests/queries/test_update.py: test_join *)
Example t_update_test_join :
  let E := env0 BSql in let W := pure_world E in
    (let x1 := upd_step W empty_update (UTable (VStr (lit "user"))) in
    let x2 := upd_step W (fst x1) (UJoin J3Inner (VStr (lit "test_user"))) in
    let x3 := upd_step W (fst x2) (UOn [(VStr (lit "user.id")); (VStr (lit "test_user.id"))] []) in
    let x4 := upd_step W (fst x3) (USet [] [((lit "name"), (VStr (lit "Alan")))]) in
    let x5 := upd_step W (fst x4) (UWhere [] [((lit "age"), (VInt 42))]) in
    let x6 := upd_step W (fst x5) (UAllow) in
    (is_ok ((snd x1)))
    && (is_ok ((snd x2)))
    && (is_ok ((snd x3)))
    && (is_ok ((snd x4)))
    && (is_ok ((snd x5)))
    && (is_ok ((snd x6)))
    && (says (text E (VUpdate (fst x6))) (lit "UPDATE ""user"" JOIN ""test_user"" ON ""user"".""id"" = ""test_user"".""id"" SET ""name"" = 'Alan' WHERE ""age"" = 42"))) = true.
Proof. vm_compute. reflexivity. Qed.

(* tests/queries/test_update.py: test_inner_join *)
Example t_update_test_inner_join :
  let E := env0 BSql in let W := pure_world E in
    (let x1 := upd_step W empty_update (UTable (VStr (lit "user"))) in
    let x2 := upd_step W (fst x1) (UJoin J3Inner (VStr (lit "test_user"))) in
    let x3 := upd_step W (fst x2) (UOn [(VStr (lit "user.id")); (VStr (lit "test_user.id"))] []) in
    let x4 := upd_step W (fst x3) (USet [] [((lit "name"), (VStr (lit "Alan")))]) in
    let x5 := upd_step W (fst x4) (UWhere [] [((lit "age"), (VInt 42))]) in
    let x6 := upd_step W (fst x5) (UAllow) in
    (is_ok ((snd x1)))
    && (is_ok ((snd x2)))
    && (is_ok ((snd x3)))
    && (is_ok ((snd x4)))
    && (is_ok ((snd x5)))
    && (is_ok ((snd x6)))
    && (says (text E (VUpdate (fst x6))) (lit "UPDATE ""user"" JOIN ""test_user"" ON ""user"".""id"" = ""test_user"".""id"" SET ""name"" = 'Alan' WHERE ""age"" = 42"))) = true.
Proof. vm_compute. reflexivity. Qed.

(* tests/queries/test_update.py: test_left_join *)
Example t_update_test_left_join :
  let E := env0 BSql in let W := pure_world E in
    (let x1 := upd_step W empty_update (UTable (VStr (lit "user"))) in
    let x2 := upd_step W (fst x1) (UJoin J3Left (VStr (lit "test_user"))) in
    let x3 := upd_step W (fst x2) (UOn [(VStr (lit "user.id")); (VStr (lit "test_user.id"))] []) in
    let x4 := upd_step W (fst x3) (USet [] [((lit "name"), (VStr (lit "Alan")))]) in
    let x5 := upd_step W (fst x4) (UWhere [] [((lit "age"), (VInt 42))]) in
    let x6 := upd_step W (fst x5) (UAllow) in
    (is_ok ((snd x1)))
    && (is_ok ((snd x2)))
    && (is_ok ((snd x3)))
    && (is_ok ((snd x4)))
    && (is_ok ((snd x5)))
    && (is_ok ((snd x6)))
    && (says (text E (VUpdate (fst x6))) (lit "UPDATE ""user"" LEFT JOIN ""test_user"" ON ""user"".""id"" = ""test_user"".""id"" SET ""name"" = 'Alan' WHERE ""age"" = 42"))) = true.
Proof. vm_compute. reflexivity. Qed.

(* tests/queries/test_update.py: test_right_join *)
Example t_update_test_right_join :
  let E := env0 BSql in let W := pure_world E in
    (let x1 := upd_step W empty_update (UTable (VStr (lit "user"))) in
    let x2 := upd_step W (fst x1) (UJoin J3Right (VStr (lit "test_user"))) in
    let x3 := upd_step W (fst x2) (UOn [(VStr (lit "user.id")); (VStr (lit "test_user.id"))] []) in
    let x4 := upd_step W (fst x3) (USet [] [((lit "name"), (VStr (lit "Alan")))]) in
    let x5 := upd_step W (fst x4) (UWhere [] [((lit "age"), (VInt 42))]) in
    let x6 := upd_step W (fst x5) (UAllow) in
    (is_ok ((snd x1)))
    && (is_ok ((snd x2)))
    && (is_ok ((snd x3)))
    && (is_ok ((snd x4)))
    && (is_ok ((snd x5)))
    && (is_ok ((snd x6)))
    && (says (text E (VUpdate (fst x6))) (lit "UPDATE ""user"" RIGHT JOIN ""test_user"" ON ""user"".""id"" = ""test_user"".""id"" SET ""name"" = 'Alan' WHERE ""age"" = 42"))) = true.
Proof. vm_compute. reflexivity. Qed.

(* tests/queries/test_update.py: test_sql_cache *)
Example t_update_test_sql_cache :
  let E := env0 BSql in let W := pure_world E in
    (let x1 := upd_step W empty_update (UTable (VStr (lit "table"))) in
    let x2 := upd_step W (fst x1) (USet [] [((lit "col"), (VStr (lit "val")))]) in
    let x3 := upd_step W (fst x2) (UWhere [] [((lit "id"), (VInt 1))]) in
    let x4 := upd_step W (fst x3) (UIgnore (VBool true)) in
    (is_ok ((snd x1)))
    && (is_ok ((snd x2)))
    && (is_ok ((snd x3)))
    && (is_ok ((snd x4)))
    && (says (text E (VUpdate (fst x4))) (lit "UPDATE IGNORE ""table"" SET ""col"" = 'val' WHERE ""id"" = 1"))) = true.
Proof. vm_compute. reflexivity. Qed.

(* tests/queryparts/test_columns.py: test_is_not_set *)
Example t_columns_test_is_not_set :
  let E := env0 BSql in let W := pure_world E in
    (((let _ := NoColumns in true))) = true.
Proof. vm_compute. reflexivity. Qed.

(* tests/queryparts/test_columns.py: test_is_set *)
Example t_columns_test_is_set :
  let E := env0 BSql in let W := pure_world E in
    (let x1 := columns_add W NoColumns [(VStr (lit "id"))] [] in
    (is_ok ((snd x1)))
    && ((let _ := (fst x1) in true))) = true.
Proof. vm_compute. reflexivity. Qed.

(* tests/queryparts/test_columns.py: test_one_column *)
Example t_columns_test_one_column :
  let E := env0 BSql in let W := pure_world E in
    (let x1 := columns_add W NoColumns [(VStr (lit "id"))] [] in
    (is_ok ((snd x1)))
    && (says (columns_str E (text E) (fst x1)) (lit """id"""))) = true.
Proof. vm_compute. reflexivity. Qed.

(* tests/queryparts/test_columns.py: test_more_columns *)
Example t_columns_test_more_columns :
  let E := env0 BSql in let W := pure_world E in
    (let x1 := columns_add W NoColumns [(VStr (lit "id")); (VStr (lit "name"))] [] in
    (is_ok ((snd x1)))
    && (says (columns_str E (text E) (fst x1)) (lit """id"", ""name"""))) = true.
Proof. vm_compute. reflexivity. Qed.

(* tests/queryparts/test_columns.py: test_all_columns *)
Example t_columns_test_all_columns :
  let E := env0 BSql in let W := pure_world E in
    ((says (columns_str E (text E) NoColumns) (lit "*"))) = true.
Proof. vm_compute. reflexivity. Qed.

(* tests/queryparts/test_columns.py: test_column_as *)
Example t_columns_test_column_as :
  let E := env0 BSql in let W := pure_world E in
    (let x1 := columns_add W NoColumns [(VSeq KTuple [(VStr (lit "id")); (VStr (lit "ID"))]); (VStr (lit "name"))] [] in
    (is_ok ((snd x1)))
    && (says (columns_str E (text E) (fst x1)) (lit """id"" AS ""ID"", ""name"""))) = true.
Proof. vm_compute. reflexivity. Qed.

(* tests/queryparts/test_columns.py: test_column_as_by_dictionary *)
Example t_columns_test_column_as_by_dictionary :
  let E := env0 BSql in let W := pure_world E in
    (let x1 := columns_add W NoColumns [(VDict [((VStr (lit "id")), (VStr (lit "ID"))); ((VStr (lit "name")), (VStr (lit "Name")))])] [] in
    (is_ok ((snd x1)))
    && (says (columns_str E (text E) (fst x1)) (lit """id"" AS ""ID"", ""name"" AS ""Name"""))) = true.
Proof. vm_compute. reflexivity. Qed.

(* tests/queryparts/test_columns.py: test_column_as_by_kwds *)
Example t_columns_test_column_as_by_kwds :
  let E := env0 BSql in let W := pure_world E in
    (let x1 := columns_add W NoColumns [] [((lit "id"), (VStr (lit "ID"))); ((lit "name"), (VStr (lit "Name")))] in
    (is_ok ((snd x1)))
    && (says (columns_str E (text E) (fst x1)) (lit """id"" AS ""ID"", ""name"" AS ""Name"""))) = true.
Proof. vm_compute. reflexivity. Qed.

(* tests/queryparts/test_columns.py: test_column_by_args_and_kwds *)
Example t_columns_test_column_by_args_and_kwds :
  let E := env0 BSql in let W := pure_world E in
    (let x1 := columns_add W NoColumns [(VStr (lit "id"))] [((lit "name"), (VStr (lit "Name")))] in
    (is_ok ((snd x1)))
    && (says (columns_str E (text E) (fst x1)) (lit """id"", ""name"" AS ""Name"""))) = true.
Proof. vm_compute. reflexivity. Qed.

(* tests/queryparts/test_columns.py: test_str *)
Example t_columns_test_str :
  let E := env0 BSql in let W := pure_world E in
    (let x1 := columns_add W NoColumns [(VStr [353; 269; 345; 382])] [] in
    (is_ok ((snd x1)))
    && (says (columns_str E (text E) (fst x1)) [34; 353; 269; 345; 382; 34])) = true.
Proof. vm_compute. reflexivity. Qed.

(* tests/queryparts/test_columns.py: test_custom_one_column *)
Example t_columns_test_custom_one_column :
  let E := env0 BSql in let W := pure_world E in
    (let x1 := mk_custom W (VStr (lit "AVG(""custom"") AS ""x""")) in
    let x2 := columns_add W NoColumns [(get VNone x1)] [] in
    (is_ok (x1))
    && (is_ok ((snd x2)))
    && (says (columns_str E (text E) (fst x2)) (lit "AVG(""custom"") AS ""x"""))) = true.
Proof. vm_compute. reflexivity. Qed.

(* tests/queryparts/test_columns.py: test_custom_more_columns *)
Example t_columns_test_custom_more_columns :
  let E := env0 BSql in let W := pure_world E in
    (let x1 := mk_custom W (VStr (lit "AVG(""custom"") AS ""x""")) in
    let x2 := columns_add W NoColumns [(get VNone x1); (VStr (lit "id"))] [] in
    (is_ok (x1))
    && (is_ok ((snd x2)))
    && (says (columns_str E (text E) (fst x2)) (lit "AVG(""custom"") AS ""x"", ""id"""))) = true.
Proof. vm_compute. reflexivity. Qed.

(* tests/queryparts/test_columns.py: test_custom_in_column_with_as *)
Example t_columns_test_custom_in_column_with_as :
  let E := env0 BSql in let W := pure_world E in
    (let x1 := mk_custom W (VStr (lit "AVG(""custom"")")) in
    let x2 := columns_add W NoColumns [(VDict [((get VNone x1), (VStr (lit "x")))])] [] in
    (is_ok (x1))
    && (is_ok ((snd x2)))
    && (says (columns_str E (text E) (fst x2)) (lit "AVG(""custom"") AS ""x"""))) = true.
Proof. vm_compute. reflexivity. Qed.

(* tests/queryparts/test_columns.py: test_column_name_as_table_and_column *)
Example t_columns_test_column_name_as_table_and_column :
  let E := env0 BSql in let W := pure_world E in
    (let x1 := columns_add W NoColumns [(VStr (lit "table.column"))] [] in
    (is_ok ((snd x1)))
    && (says (columns_str E (text E) (fst x1)) (lit """table"".""column"""))) = true.
Proof. vm_compute. reflexivity. Qed.

(* tests/queryparts/test_columns.py: test_column_name_as_table_and_column_with_dot_in_name *)
Example t_columns_test_column_name_as_table_and_column_with_dot_in_name :
  let E := env0 BSql in let W := pure_world E in
    (let x1 := columns_add W NoColumns [(VStr (lit "table.""column."""))] [] in
    (is_ok ((snd x1)))
    && (says (columns_str E (text E) (fst x1)) (lit """table"".""column."""))) = true.
Proof. vm_compute. reflexivity. Qed.

(* tests/queryparts/test_columns.py: test_more_same_columns_print_as_one *)
Example t_columns_test_more_same_columns_print_as_one :
  let E := env0 BSql in let W := pure_world E in
    (let x1 := columns_add W NoColumns [(VStr (lit "col")); (VStr (lit "col"))] [] in
    (is_ok ((snd x1)))
    && (says (columns_str E (text E) (fst x1)) (lit """col"""))) = true.
Proof. vm_compute. reflexivity. Qed.

(* tests/queryparts/test_columns.py: test_more_same_columns_with_diff_as_print_as_more *)
Example t_columns_test_more_same_columns_with_diff_as_print_as_more :
  let E := env0 BSql in let W := pure_world E in
    (let x1 := columns_add W NoColumns [(VStr (lit "col")); (VSeq KTuple [(VStr (lit "col")); (VStr (lit "col2"))])] [] in
    (is_ok ((snd x1)))
    && (says (columns_str E (text E) (fst x1)) (lit """col"", ""col"" AS ""col2"""))) = true.
Proof. vm_compute. reflexivity. Qed.

(* tests/queryparts/test_columns.py: test_copy *)
Example t_columns_test_copy :
  let E := env0 BSql in let W := pure_world E in
    (let x1 := columns_add W NoColumns [(VStr (lit "id")); (VStr (lit "name"))] [] in
    let x2 := columns_add W (fst x1) [(VStr (lit "address"))] [] in
    (is_ok ((snd x1)))
    && (is_ok ((snd x2)))
    && (says (columns_str E (text E) (fst x1)) (lit """id"", ""name"""))
    && (says (columns_str E (text E) (fst x2)) (lit """id"", ""name"", ""address"""))) = true.
Proof. vm_compute. reflexivity. Qed.

(* tests/queryparts/test_columns.py: test_equals *)
Example t_columns_test_equals :
  let E := env0 BSql in let W := pure_world E in
    (let x1 := columns_add W NoColumns [(VStr (lit "id")); (VStr (lit "name"))] [] in
    (is_ok ((snd x1)))
    && (yes (list_eq (pair_eq (py_eq E)) (fst x1) (fst x1)))) = true.
Proof. vm_compute. reflexivity. Qed.

(* tests/queryparts/test_columns.py: test_not_equals *)
Example t_columns_test_not_equals :
  let E := env0 BSql in let W := pure_world E in
    (let x1 := columns_add W NoColumns [(VStr (lit "id")); (VStr (lit "name"))] [] in
    let x2 := columns_add W (fst x1) [(VStr (lit "address"))] [] in
    (is_ok ((snd x1)))
    && (is_ok ((snd x2)))
    && (negb (yes (list_eq (pair_eq (py_eq E)) (fst x2) (fst x1))))) = true.
Proof. vm_compute. reflexivity. Qed.

(* tests/queryparts/test_columns.py: test_name_as_float_exception *)
Example t_columns_test_name_as_float_exception :
  let E := env0 BSql in let W := pure_world E in
    (let x1 := columns_add W NoColumns [(VFloat (NFin false 5925048259759309 140737488355328))] [] in
    (first_error [EInvalidArgument] [err_of ((snd x1))])) = true.
Proof. vm_compute. reflexivity. Qed.

(* tests/queryparts/test_columns.py: test_name_as_boolean_exception *)
Example t_columns_test_name_as_boolean_exception :
  let E := env0 BSql in let W := pure_world E in
    (let x1 := columns_add W NoColumns [(VBool true)] [] in
    (first_error [EInvalidArgument] [err_of ((snd x1))])) = true.
Proof. vm_compute. reflexivity. Qed.

(* tests/queryparts/test_functions.py: test_normal *)
Example t_functions_TestAvg_test_normal :
  let E := env0 BSql in let W := pure_world E in
    ((says (text E (mk_agg FAvg (VStr (lit "col")))) (lit "AVG(""col"")"))) = true.
Proof. vm_compute. reflexivity. Qed.

(* tests/queryparts/test_functions.py: test_distinct *)
Example t_functions_TestAvg_test_distinct :
  let E := env0 BSql in let W := pure_world E in
    ((says (text E (agg_distinct (mk_agg FAvg (VStr (lit "col"))) (VBool true))) (lit "AVG(DISTINCT ""col"")"))) = true.
Proof. vm_compute. reflexivity. Qed.

(* tests/queryparts/test_functions.py: test_distinct_by_method *)
Example t_functions_TestAvg_test_distinct_by_method :
  let E := env0 BSql in let W := pure_world E in
    ((says (text E (agg_distinct (mk_agg FAvg (VStr (lit "col"))) (VBool true))) (lit "AVG(DISTINCT ""col"")"))) = true.
Proof. vm_compute. reflexivity. Qed.

(* tests/queryparts/test_functions.py: test_distinct_by_method_with_param *)
Example t_functions_TestAvg_test_distinct_by_method_with_param :
  let E := env0 BSql in let W := pure_world E in
    ((says (text E (agg_distinct (mk_agg FAvg (VStr (lit "col"))) (VBool false))) (lit "AVG(""col"")"))) = true.
Proof. vm_compute. reflexivity. Qed.

(* tests/queryparts/test_functions.py: test_normal *)
Example t_functions_TestCount_test_normal :
  let E := env0 BSql in let W := pure_world E in
    ((says (text E (mk_agg FCount (VStr (lit "col")))) (lit "COUNT(""col"")"))) = true.
Proof. vm_compute. reflexivity. Qed.

(* tests/queryparts/test_functions.py: test_count_with_star *)
Example t_functions_TestCount_test_count_with_star :
  let E := env0 BSql in let W := pure_world E in
    ((says (text E (mk_agg FCount (VStr (lit "*")))) (lit "COUNT(*)"))) = true.
Proof. vm_compute. reflexivity. Qed.

(* tests/queryparts/test_functions.py: test_count_without_param *)
Example t_functions_TestCount_test_count_without_param :
  let E := env0 BSql in let W := pure_world E in
    ((says (text E (mk_agg FCount VNone)) (lit "COUNT(*)"))) = true.
Proof. vm_compute. reflexivity. Qed.

(* tests/queryparts/test_functions.py: test_distinct *)
Example t_functions_TestCount_test_distinct :
  let E := env0 BSql in let W := pure_world E in
    ((says (text E (agg_distinct (mk_agg FCount (VStr (lit "col"))) (VBool true))) (lit "COUNT(DISTINCT ""col"")"))) = true.
Proof. vm_compute. reflexivity. Qed.

(* tests/queryparts/test_functions.py: test_distinct_by_method *)
Example t_functions_TestCount_test_distinct_by_method :
  let E := env0 BSql in let W := pure_world E in
    ((says (text E (agg_distinct (mk_agg FCount (VStr (lit "col"))) (VBool true))) (lit "COUNT(DISTINCT ""col"")"))) = true.
Proof. vm_compute. reflexivity. Qed.

(* tests/queryparts/test_functions.py: test_distinct_by_method_with_param *)
Example t_functions_TestCount_test_distinct_by_method_with_param :
  let E := env0 BSql in let W := pure_world E in
    ((says (text E (agg_distinct (mk_agg FCount (VStr (lit "col"))) (VBool false))) (lit "COUNT(""col"")"))) = true.
Proof. vm_compute. reflexivity. Qed.

(* tests/queryparts/test_functions.py: test_distinct_more_exprs *)
Example t_functions_TestCount_test_distinct_more_exprs :
  let E := env0 BSql in let W := pure_world E in
    ((says (text E (agg_distinct (mk_agg FCount (VSeq KTuple [(VStr (lit "col1")); (VStr (lit "col2"))])) (VBool true))) (lit "COUNT(DISTINCT ""col1"", ""col2"")"))) = true.
Proof. vm_compute. reflexivity. Qed.

(* tests/queryparts/test_functions.py: test_normal *)
Example t_functions_TestMax_test_normal :
  let E := env0 BSql in let W := pure_world E in
    ((says (text E (mk_agg FMax (VStr (lit "col")))) (lit "MAX(""col"")"))) = true.
Proof. vm_compute. reflexivity. Qed.

(* tests/queryparts/test_functions.py: test_distinct *)
Example t_functions_TestMax_test_distinct :
  let E := env0 BSql in let W := pure_world E in
    ((says (text E (agg_distinct (mk_agg FMax (VStr (lit "col"))) (VBool true))) (lit "MAX(DISTINCT ""col"")"))) = true.
Proof. vm_compute. reflexivity. Qed.

(* tests/queryparts/test_functions.py: test_distinct_by_method *)
Example t_functions_TestMax_test_distinct_by_method :
  let E := env0 BSql in let W := pure_world E in
    ((says (text E (agg_distinct (mk_agg FMax (VStr (lit "col"))) (VBool true))) (lit "MAX(DISTINCT ""col"")"))) = true.
Proof. vm_compute. reflexivity. Qed.

(* tests/queryparts/test_functions.py: test_distinct_by_method_with_param *)
Example t_functions_TestMax_test_distinct_by_method_with_param :
  let E := env0 BSql in let W := pure_world E in
    ((says (text E (agg_distinct (mk_agg FMax (VStr (lit "col"))) (VBool false))) (lit "MAX(""col"")"))) = true.
Proof. vm_compute. reflexivity. Qed.

(* tests/queryparts/test_functions.py: test_normal *)
Example t_functions_TestMin_test_normal :
  let E := env0 BSql in let W := pure_world E in
    ((says (text E (mk_agg FMin (VStr (lit "col")))) (lit "MIN(""col"")"))) = true.
Proof. vm_compute. reflexivity. Qed.

(* tests/queryparts/test_functions.py: test_distinct *)
Example t_functions_TestMin_test_distinct :
  let E := env0 BSql in let W := pure_world E in
    ((says (text E (agg_distinct (mk_agg FMin (VStr (lit "col"))) (VBool true))) (lit "MIN(DISTINCT ""col"")"))) = true.
Proof. vm_compute. reflexivity. Qed.

(* tests/queryparts/test_functions.py: test_distinct_by_method *)
Example t_functions_TestMin_test_distinct_by_method :
  let E := env0 BSql in let W := pure_world E in
    ((says (text E (agg_distinct (mk_agg FMin (VStr (lit "col"))) (VBool true))) (lit "MIN(DISTINCT ""col"")"))) = true.
Proof. vm_compute. reflexivity. Qed.

(* tests/queryparts/test_functions.py: test_distinct_by_method_with_param *)
Example t_functions_TestMin_test_distinct_by_method_with_param :
  let E := env0 BSql in let W := pure_world E in
    ((says (text E (agg_distinct (mk_agg FMin (VStr (lit "col"))) (VBool false))) (lit "MIN(""col"")"))) = true.
Proof. vm_compute. reflexivity. Qed.

(* tests/queryparts/test_functions.py: test_normal *)
Example t_functions_TestSum_test_normal :
  let E := env0 BSql in let W := pure_world E in
    ((says (text E (mk_agg FSum (VStr (lit "col")))) (lit "SUM(""col"")"))) = true.
Proof. vm_compute. reflexivity. Qed.

(* tests/queryparts/test_functions.py: test_distinct *)
Example t_functions_TestSum_test_distinct :
  let E := env0 BSql in let W := pure_world E in
    ((says (text E (agg_distinct (mk_agg FSum (VStr (lit "col"))) (VBool true))) (lit "SUM(DISTINCT ""col"")"))) = true.
Proof. vm_compute. reflexivity. Qed.

(* tests/queryparts/test_functions.py: test_distinct_by_method *)
Example t_functions_TestSum_test_distinct_by_method :
  let E := env0 BSql in let W := pure_world E in
    ((says (text E (agg_distinct (mk_agg FSum (VStr (lit "col"))) (VBool true))) (lit "SUM(DISTINCT ""col"")"))) = true.
Proof. vm_compute. reflexivity. Qed.

(* tests/queryparts/test_functions.py: test_distinct_by_method_with_param *)
Example t_functions_TestSum_test_distinct_by_method_with_param :
  let E := env0 BSql in let W := pure_world E in
    ((says (text E (agg_distinct (mk_agg FSum (VStr (lit "col"))) (VBool false))) (lit "SUM(""col"")"))) = true.
Proof. vm_compute. reflexivity. Qed.

(* tests/queryparts/test_functions.py: test_normal *)
Example t_functions_TestConcat_test_normal :
  let E := env0 BSql in let W := pure_world E in
    (let x1 := mk_concat W [(VStr (lit "col"))] in
    (is_ok (x1))
    && (says (text E (get VNone x1)) (lit "CONCAT(""col"")"))) = true.
Proof. vm_compute. reflexivity. Qed.

(* tests/queryparts/test_functions.py: test_more_columns *)
Example t_functions_TestConcat_test_more_columns :
  let E := env0 BSql in let W := pure_world E in
    (let x1 := mk_concat W [(VStr (lit "col")); (VStr (lit "col2"))] in
    (is_ok (x1))
    && (says (text E (get VNone x1)) (lit "CONCAT(""col"", ""col2"")"))) = true.
Proof. vm_compute. reflexivity. Qed.

(* tests/queryparts/test_functions.py: test_normal *)
Example t_functions_TestGroupConcat_test_normal :
  let E := env0 BSql in let W := pure_world E in
    (let x1 := mk_group_concat W [(VStr (lit "col"))] in
    (is_ok (x1))
    && (says (text E (get VNone x1)) (lit "GROUP_CONCAT(""col"")"))) = true.
Proof. vm_compute. reflexivity. Qed.

(* tests/queryparts/test_functions.py: test_more_columns *)
Example t_functions_TestGroupConcat_test_more_columns :
  let E := env0 BSql in let W := pure_world E in
    (let x1 := mk_group_concat W [(VStr (lit "col")); (VStr (lit "col2"))] in
    (is_ok (x1))
    && (says (text E (get VNone x1)) (lit "GROUP_CONCAT(""col"", ""col2"")"))) = true.
Proof. vm_compute. reflexivity. Qed.

(* tests/queryparts/test_functions.py: test_with_order_by *)
Example t_functions_TestGroupConcat_test_with_order_by :
  let E := env0 BSql in let W := pure_world E in
    (let x1 := mk_group_concat W [(VStr (lit "col"))] in
    let x2 := gc_order_by W (get VNone x1) [(VDict [((VStr (lit "name")), (VStr (lit "desc")))])] in
    (is_ok (x1))
    && (is_ok ((snd x2)))
    && (says (text E (fst x2)) (lit "GROUP_CONCAT(""col"" ORDER BY ""name"" DESC)"))) = true.
Proof. vm_compute. reflexivity. Qed.

(* tests/queryparts/test_functions.py: test_with_separator *)
Example t_functions_TestGroupConcat_test_with_separator :
  let E := env0 BSql in let W := pure_world E in
    (let x1 := mk_group_concat W [(VStr (lit "col"))] in
    let x2 := gc_separator (get VNone x1) (VStr (lit "|||")) in
    (is_ok (x1))
    && (is_ok ((snd x2)))
    && (says (text E (fst x2)) (lit "GROUP_CONCAT(""col"" SEPARATOR '|||')"))) = true.
Proof. vm_compute. reflexivity. Qed.

(* tests/queryparts/test_functions.py: test_with_order_by_and_separator *)
Example t_functions_TestGroupConcat_test_with_order_by_and_separator :
  let E := env0 BSql in let W := pure_world E in
    (let x1 := mk_group_concat W [(VStr (lit "col"))] in
    let x2 := gc_order_by W (get VNone x1) [(VDict [((VStr (lit "name")), (VStr (lit "desc")))])] in
    let x3 := gc_separator (fst x2) (VStr (lit "|||")) in
    (is_ok (x1))
    && (is_ok ((snd x2)))
    && (is_ok ((snd x3)))
    && (says (text E (fst x3)) (lit "GROUP_CONCAT(""col"" ORDER BY ""name"" DESC SEPARATOR '|||')"))) = true.
Proof. vm_compute. reflexivity. Qed.

(* tests/queryparts/test_functions.py: test_signed *)
Example t_functions_TestConvert_test_signed :
  let E := env0 BSql in let W := pure_world E in
    (let x1 := mk_convert W (VStr (lit "col")) VNone in
    let x2 := convert_to W (get VNone x1) (VStr (lit "signed")) in
    (is_ok (x1))
    && (is_ok ((snd x2)))
    && (says (text E (fst x2)) (lit "CONVERT(""col"", SIGNED)"))) = true.
Proof. vm_compute. reflexivity. Qed.

(* tests/queryparts/test_functions.py: test_char_with_length *)
Example t_functions_TestConvert_test_char_with_length :
  let E := env0 BSql in let W := pure_world E in
    (let x1 := mk_convert W (VStr (lit "col")) VNone in
    let x2 := convert_to W (get VNone x1) (VStr (lit "char(5)")) in
    (is_ok (x1))
    && (is_ok ((snd x2)))
    && (says (text E (fst x2)) (lit "CONVERT(""col"", CHAR(5))"))) = true.
Proof. vm_compute. reflexivity. Qed.

(* tests/queryparts/test_functions.py: test_decimal_with_precision *)
Example t_functions_TestConvert_test_decimal_with_precision :
  let E := env0 BSql in let W := pure_world E in
    (let x1 := mk_convert W (VStr (lit "col")) VNone in
    let x2 := convert_to W (get VNone x1) (VStr (lit "decimal(2,5)")) in
    (is_ok (x1))
    && (is_ok ((snd x2)))
    && (says (text E (fst x2)) (lit "CONVERT(""col"", DECIMAL(2,5))"))) = true.
Proof. vm_compute. reflexivity. Qed.

(* tests/queryparts/test_groupby.py: test_is_not_set *)
Example t_groupby_test_is_not_set :
  let E := env0 BSql in let W := pure_world E in
    ((negb (negb (is_nilb NoOrders)))) = true.
Proof. vm_compute. reflexivity. Qed.

(* tests/queryparts/test_groupby.py: test_is_set *)
Example t_groupby_test_is_set :
  let E := env0 BSql in let W := pure_world E in
    (let x1 := orders_add W NoOrders [(VStr (lit "id"))] [] in
    (is_ok ((snd x1)))
    && (negb (is_nilb (fst x1)))) = true.
Proof. vm_compute. reflexivity. Qed.

(* tests/queryparts/test_groupby.py: test_simply *)
Example t_groupby_test_simply :
  let E := env0 BSql in let W := pure_world E in
    (let x1 := orders_add W NoOrders [(VStr (lit "id"))] [] in
    (is_ok ((snd x1)))
    && (says (orders_str E (text E) (lit "GROUP BY") (fst x1)) (lit "GROUP BY ""id"""))) = true.
Proof. vm_compute. reflexivity. Qed.

(* tests/queryparts/test_groupby.py: test_more_columns *)
Example t_groupby_test_more_columns :
  let E := env0 BSql in let W := pure_world E in
    (let x1 := orders_add W NoOrders [(VStr (lit "id")); (VSeq KList [(VStr (lit "name")); (VStr (lit "desc"))])] [] in
    (is_ok ((snd x1)))
    && (says (orders_str E (text E) (lit "GROUP BY") (fst x1)) (lit "GROUP BY ""id"", ""name"" DESC"))) = true.
Proof. vm_compute. reflexivity. Qed.

(* tests/queryparts/test_groupby.py: test_asc *)
Example t_groupby_test_asc :
  let E := env0 BSql in let W := pure_world E in
    (let x1 := orders_add W NoOrders [(VSeq KList [(VStr (lit "name")); (VStr (lit "asc"))])] [] in
    (is_ok ((snd x1)))
    && (says (orders_str E (text E) (lit "GROUP BY") (fst x1)) (lit "GROUP BY ""name"""))) = true.
Proof. vm_compute. reflexivity. Qed.

(* tests/queryparts/test_groupby.py: test_desc *)
Example t_groupby_test_desc :
  let E := env0 BSql in let W := pure_world E in
    (let x1 := orders_add W NoOrders [(VSeq KList [(VStr (lit "name")); (VStr (lit "desc"))])] [] in
    (is_ok ((snd x1)))
    && (says (orders_str E (text E) (lit "GROUP BY") (fst x1)) (lit "GROUP BY ""name"" DESC"))) = true.
Proof. vm_compute. reflexivity. Qed.

(* tests/queryparts/test_groupby.py: test_order_by_number *)
Example t_groupby_test_order_by_number :
  let E := env0 BSql in let W := pure_world E in
    (let x1 := orders_add W NoOrders [(VInt 1)] [] in
    (is_ok ((snd x1)))
    && (says (orders_str E (text E) (lit "GROUP BY") (fst x1)) (lit "GROUP BY 1"))) = true.
Proof. vm_compute. reflexivity. Qed.

(* tests/queryparts/test_groupby.py: test_by_dictionary *)
Example t_groupby_test_by_dictionary :
  let E := env0 BSql in let W := pure_world E in
    (let x1 := orders_add W NoOrders [(VDict [((VStr (lit "id")), (VStr (lit "ASC"))); ((VStr (lit "name")), (VStr (lit "DESC")))])] [] in
    (is_ok ((snd x1)))
    && (says (orders_str E (text E) (lit "GROUP BY") (fst x1)) (lit "GROUP BY ""id"", ""name"" DESC"))) = true.
Proof. vm_compute. reflexivity. Qed.

(* tests/queryparts/test_groupby.py: test_by_kwds *)
Example t_groupby_test_by_kwds :
  let E := env0 BSql in let W := pure_world E in
    (let x1 := orders_add W NoOrders [] [((lit "id"), (VStr (lit "ASC"))); ((lit "name"), (VStr (lit "DESC")))] in
    (is_ok ((snd x1)))
    && (says (orders_str E (text E) (lit "GROUP BY") (fst x1)) (lit "GROUP BY ""id"", ""name"" DESC"))) = true.
Proof. vm_compute. reflexivity. Qed.

(* tests/queryparts/test_groupby.py: test_str *)
Example t_groupby_test_str :
  let E := env0 BSql in let W := pure_world E in
    (let x1 := orders_add W NoOrders [(VStr [353; 269; 345; 382])] [] in
    (is_ok ((snd x1)))
    && (says (orders_str E (text E) (lit "GROUP BY") (fst x1)) [71; 82; 79; 85; 80; 32; 66; 89; 32; 34; 353; 269; 345; 382; 34])) = true.
Proof. vm_compute. reflexivity. Qed.

(* tests/queryparts/test_groupby.py: test_column_name_as_table_and_column *)
Example t_groupby_test_column_name_as_table_and_column :
  let E := env0 BSql in let W := pure_world E in
    (let x1 := orders_add W NoOrders [(VStr (lit "table.column"))] [] in
    (is_ok ((snd x1)))
    && (says (orders_str E (text E) (lit "GROUP BY") (fst x1)) (lit "GROUP BY ""table"".""column"""))) = true.
Proof. vm_compute. reflexivity. Qed.

(* tests/queryparts/test_groupby.py: test_column_name_as_table_and_column_with_dot_in_name *)
Example t_groupby_test_column_name_as_table_and_column_with_dot_in_name :
  let E := env0 BSql in let W := pure_world E in
    (let x1 := orders_add W NoOrders [(VStr (lit "table.""column."""))] [] in
    (is_ok ((snd x1)))
    && (says (orders_str E (text E) (lit "GROUP BY") (fst x1)) (lit "GROUP BY ""table"".""column."""))) = true.
Proof. vm_compute. reflexivity. Qed.

(* tests/queryparts/test_groupby.py: test_more_same_columns_print_as_one *)
Example t_groupby_test_more_same_columns_print_as_one :
  let E := env0 BSql in let W := pure_world E in
    (let x1 := orders_add W NoOrders [(VStr (lit "col")); (VStr (lit "col"))] [] in
    (is_ok ((snd x1)))
    && (says (orders_str E (text E) (lit "GROUP BY") (fst x1)) (lit "GROUP BY ""col"""))) = true.
Proof. vm_compute. reflexivity. Qed.

(* tests/queryparts/test_groupby.py: test_more_same_columns_with_diff_asc_print_as_one *)
Example t_groupby_test_more_same_columns_with_diff_asc_print_as_one :
  let E := env0 BSql in let W := pure_world E in
    (let x1 := orders_add W NoOrders [(VStr (lit "col")); (VSeq KTuple [(VStr (lit "col")); (VStr (lit "DESC"))])] [] in
    (is_ok ((snd x1)))
    && (says (orders_str E (text E) (lit "GROUP BY") (fst x1)) (lit "GROUP BY ""col"" DESC"))) = true.
Proof. vm_compute. reflexivity. Qed.

(* tests/queryparts/test_groupby.py: test_copy *)
Example t_groupby_test_copy :
  let E := env0 BSql in let W := pure_world E in
    (let x1 := orders_add W NoOrders [(VStr (lit "id")); (VStr (lit "name"))] [] in
    let x2 := orders_add W (fst x1) [(VStr (lit "address"))] [] in
    (is_ok ((snd x1)))
    && (is_ok ((snd x2)))
    && (says (orders_str E (text E) (lit "GROUP BY") (fst x1)) (lit "GROUP BY ""id"", ""name"""))
    && (says (orders_str E (text E) (lit "GROUP BY") (fst x2)) (lit "GROUP BY ""id"", ""name"", ""address"""))) = true.
Proof. vm_compute. reflexivity. Qed.

(* tests/queryparts/test_groupby.py: test_equals *)
Example t_groupby_test_equals :
  let E := env0 BSql in let W := pure_world E in
    (let x1 := orders_add W NoOrders [(VStr (lit "id")); (VStr (lit "name"))] [] in
    (is_ok ((snd x1)))
    && (yes (list_eq (ord_eq (py_eq E)) (fst x1) (fst x1)))) = true.
Proof. vm_compute. reflexivity. Qed.

(* tests/queryparts/test_groupby.py: test_not_equals *)
Example t_groupby_test_not_equals :
  let E := env0 BSql in let W := pure_world E in
    (let x1 := orders_add W NoOrders [(VStr (lit "id")); (VStr (lit "name"))] [] in
    let x2 := orders_add W (fst x1) [(VStr (lit "address"))] [] in
    (is_ok ((snd x1)))
    && (is_ok ((snd x2)))
    && (negb (yes (list_eq (ord_eq (py_eq E)) (fst x2) (fst x1))))) = true.
Proof. vm_compute. reflexivity. Qed.

(* tests/queryparts/test_groupby.py: test_name_as_float_exception *)
Example t_groupby_test_name_as_float_exception :
  let E := env0 BSql in let W := pure_world E in
    (let x1 := orders_add W NoOrders [(VFloat (NFin false 5925048259759309 140737488355328))] [] in
    (first_error [EInvalidArgument] [err_of ((snd x1))])) = true.
Proof. vm_compute. reflexivity. Qed.

(* tests/queryparts/test_groupby.py: test_name_as_boolean_exception *)
Example t_groupby_test_name_as_boolean_exception :
  let E := env0 BSql in let W := pure_world E in
    (let x1 := orders_add W NoOrders [(VBool true)] [] in
    (first_error [EInvalidArgument] [err_of ((snd x1))])) = true.
Proof. vm_compute. reflexivity. Qed.

(* tests/queryparts/test_groupby.py: test_not_asc_or_desc_exception *)
Example t_groupby_test_not_asc_or_desc_exception :
  let E := env0 BSql in let W := pure_world E in
    (let x1 := orders_add W NoOrders [(VSeq KTuple [(VStr (lit "col")); (VStr (lit "AAA"))])] [] in
    (first_error [EInvalidArgument] [err_of ((snd x1))])) = true.
Proof. vm_compute. reflexivity. Qed.

(* tests/queryparts/test_having.py: test_is_not_set *)
Example t_having_test_is_not_set :
  let E := env0 BSql in let W := pure_world E in
    ((negb (negb (is_nilb NoParts)))) = true.
Proof. vm_compute. reflexivity. Qed.

(* tests/queryparts/test_having.py: test_is_set *)
Example t_having_test_is_set :
  let E := env0 BSql in let W := pure_world E in
    (let x1 := conds_where W KWhere NoParts [] [((lit "name"), (VStr (lit "Alan")))] in
    (is_ok ((snd x1)))
    && (negb (is_nilb (fst x1)))) = true.
Proof. vm_compute. reflexivity. Qed.

(* tests/queryparts/test_having.py: test_where_by_tuple *)
Example t_having_test_where_by_tuple :
  let E := env0 BSql in let W := pure_world E in
    (let x1 := mk_rel RNe (VStr (lit "female")) in
    let x2 := mk_rel RGt (VInt 20) in
    let x3 := conds_where W KWhere NoParts [(VSeq KTuple [(VSeq KTuple [(VStr (lit "name")); (VStr (lit "Harry"))]); (VSeq KTuple [(VStr (lit "sex")); (get VNone x1)]); (VSeq KTuple [(VStr (lit "age")); (get VNone x2)])])] [] in
    (is_ok (x1))
    && (is_ok (x2))
    && (is_ok ((snd x3)))
    && (says (conds_str (text E) (lit "HAVING") (fst x3)) (lit "HAVING ""name"" = 'Harry' AND ""sex"" != 'female' AND ""age"" > 20"))) = true.
Proof. vm_compute. reflexivity. Qed.

(* tests/queryparts/test_having.py: test_where_by_list *)
Example t_having_test_where_by_list :
  let E := env0 BSql in let W := pure_world E in
    (let x1 := mk_rel RLike (VStr (lit "Harry")) in
    let x2 := mk_rel RNe (VStr (lit "female")) in
    let x3 := mk_rel RLe (VInt 20) in
    let x4 := conds_where W KWhere NoParts [(VSeq KList [(VSeq KList [(VStr (lit "name")); (get VNone x1)]); (VSeq KList [(VStr (lit "sex")); (get VNone x2)]); (VSeq KList [(VStr (lit "age")); (get VNone x3)])])] [] in
    (is_ok (x1))
    && (is_ok (x2))
    && (is_ok (x3))
    && (is_ok ((snd x4)))
    && (says (conds_str (text E) (lit "HAVING") (fst x4)) (lit "HAVING ""name"" LIKE 'Harry' AND ""sex"" != 'female' AND ""age"" <= 20"))) = true.
Proof. vm_compute. reflexivity. Qed.

(* tests/queryparts/test_having.py: test_where_by_dictionary *)
Example t_having_test_where_by_dictionary :
  let E := env0 BSql in let W := pure_world E in
    (let x1 := conds_where W KWhere NoParts [(VDict [((VStr (lit "name")), (VStr (lit "Alan"))); ((VStr (lit "age")), (VInt 20))])] [] in
    (is_ok ((snd x1)))
    && (says (conds_str (text E) (lit "HAVING") (fst x1)) (lit "HAVING ""age"" = 20 AND ""name"" = 'Alan'"))) = true.
Proof. vm_compute. reflexivity. Qed.

(* tests/queryparts/test_having.py: test_where_by_args *)
Example t_having_test_where_by_args :
  let E := env0 BSql in let W := pure_world E in
    (let x1 := mk_rel RLt (VInt 20) in
    let x2 := conds_where W KWhere NoParts [(VStr (lit "age")); (get VNone x1)] [] in
    (is_ok (x1))
    && (is_ok ((snd x2)))
    && (says (conds_str (text E) (lit "HAVING") (fst x2)) (lit "HAVING ""age"" < 20"))) = true.
Proof. vm_compute. reflexivity. Qed.

(* tests/queryparts/test_having.py: test_where_by_kwargs *)
Example t_having_test_where_by_kwargs :
  let E := env0 BSql in let W := pure_world E in
    (let x1 := conds_where W KWhere NoParts [] [((lit "name"), (VStr (lit "Alan")))] in
    (is_ok ((snd x1)))
    && (says (conds_str (text E) (lit "HAVING") (fst x1)) (lit "HAVING ""name"" = 'Alan'"))) = true.
Proof. vm_compute. reflexivity. Qed.

(* tests/queryparts/test_having.py: test_serial_where *)
Example t_having_test_serial_where :
  let E := env0 BSql in let W := pure_world E in
    (let x1 := conds_where W KWhere NoParts [] [((lit "name"), (VStr (lit "Alan")))] in
    let x2 := conds_where W KWhere (fst x1) [] [((lit "age"), (VInt 42))] in
    (is_ok ((snd x1)))
    && (is_ok ((snd x2)))
    && (says (conds_str (text E) (lit "HAVING") (fst x2)) (lit "HAVING ""name"" = 'Alan' AND ""age"" = 42"))) = true.
Proof. vm_compute. reflexivity. Qed.

(* tests/queryparts/test_having.py: test_str *)
Example t_having_test_str :
  let E := env0 BSql in let W := pure_world E in
    (let x1 := conds_where W KWhere NoParts [] [((lit "name"), (VStr [353; 269; 345; 382]))] in
    (is_ok ((snd x1)))
    && (says (conds_str (text E) (lit "HAVING") (fst x1)) [72; 65; 86; 73; 78; 71; 32; 34; 110; 97; 109; 101; 34; 32; 61; 32; 39; 353; 269; 345; 382; 39])) = true.
Proof. vm_compute. reflexivity. Qed.

(* tests/queryparts/test_having.py: test_more_same_conditions_print_as_one *)
Example t_having_test_more_same_conditions_print_as_one :
  let E := env0 BSql in let W := pure_world E in
    (let x1 := conds_where W KWhere NoParts [(VSeq KTuple [(VStr (lit "age")); (VInt 20)]); (VSeq KTuple [(VStr (lit "age")); (VInt 20)])] [] in
    (is_ok ((snd x1)))
    && (says (conds_str (text E) (lit "HAVING") (fst x1)) (lit "HAVING ""age"" = 20"))) = true.
Proof. vm_compute. reflexivity. Qed.

(* tests/queryparts/test_having.py: test_more_same_conditions_with_diff_relation_print_as_more *)
Example t_having_test_more_same_conditions_with_diff_relation_print_as_more :
  let E := env0 BSql in let W := pure_world E in
    (let x1 := mk_rel RNe (VInt 20) in
    let x2 := conds_where W KWhere NoParts [(VSeq KTuple [(VStr (lit "age")); (VInt 20)]); (VSeq KTuple [(VStr (lit "age")); (get VNone x1)])] [] in
    (is_ok (x1))
    && (is_ok ((snd x2)))
    && (says (conds_str (text E) (lit "HAVING") (fst x2)) (lit "HAVING ""age"" = 20 AND ""age"" != 20"))) = true.
Proof. vm_compute. reflexivity. Qed.

(* tests/queryparts/test_having.py: test_copy *)
Example t_having_test_copy :
  let E := env0 BSql in let W := pure_world E in
    (let x1 := conds_where W KWhere NoParts [(VDict [((VStr (lit "id")), (VInt 42))])] [] in
    let x2 := conds_where W KWhere (fst x1) [(VDict [((VStr (lit "name")), (VStr (lit "Alan")))])] [] in
    (is_ok ((snd x1)))
    && (is_ok ((snd x2)))
    && (says (conds_str (text E) (lit "HAVING") (fst x1)) (lit "HAVING ""id"" = 42"))
    && (says (conds_str (text E) (lit "HAVING") (fst x2)) (lit "HAVING ""id"" = 42 AND ""name"" = 'Alan'"))) = true.
Proof. vm_compute. reflexivity. Qed.

(* tests/queryparts/test_having.py: test_equals *)
Example t_having_test_equals :
  let E := env0 BSql in let W := pure_world E in
    (let x1 := conds_where W KWhere NoParts [(VDict [((VStr (lit "id")), (VInt 42))])] [] in
    (is_ok ((snd x1)))
    && (yes (list_eq (py_eq E) (fst x1) (fst x1)))) = true.
Proof. vm_compute. reflexivity. Qed.

(* tests/queryparts/test_having.py: test_not_equals *)
Example t_having_test_not_equals :
  let E := env0 BSql in let W := pure_world E in
    (let x1 := conds_where W KWhere NoParts [(VDict [((VStr (lit "id")), (VInt 42))])] [] in
    let x2 := conds_where W KWhere (fst x1) [(VDict [((VStr (lit "name")), (VStr (lit "Alan")))])] [] in
    (is_ok ((snd x1)))
    && (is_ok ((snd x2)))
    && (negb (yes (list_eq (py_eq E) (fst x2) (fst x1))))) = true.
Proof. vm_compute. reflexivity. Qed.

(* tests/queryparts/test_having.py: test_value_as_integer *)
Example t_having_test_value_as_integer :
  let E := env0 BSql in let W := pure_world E in
    (let x1 := conds_where W KWhere NoParts [(VStr (lit "col")); (VInt 42)] [] in
    (is_ok ((snd x1)))
    && (says (conds_str (text E) (lit "HAVING") (fst x1)) (lit "HAVING ""col"" = 42"))) = true.
Proof. vm_compute. reflexivity. Qed.

(* tests/queryparts/test_having.py: test_value_as_float *)
Example t_having_test_value_as_float :
  let E := env0 BSql in let W := pure_world E in
    (let x1 := conds_where W KWhere NoParts [(VStr (lit "col")); (VFloat (NFin false 5925048259759309 140737488355328))] [] in
    (is_ok ((snd x1)))
    && (says (conds_str (text E) (lit "HAVING") (fst x1)) (lit "HAVING ""col"" = 42.10000"))) = true.
Proof. vm_compute. reflexivity. Qed.

(* tests/queryparts/test_having.py: test_value_as_boolean *)
Example t_having_test_value_as_boolean :
  let E := env0 BSql in let W := pure_world E in
    (let x1 := conds_where W KWhere NoParts [(VStr (lit "col")); (VBool true)] [] in
    (is_ok ((snd x1)))
    && (says (conds_str (text E) (lit "HAVING") (fst x1)) (lit "HAVING ""col"" = 1"))) = true.
Proof. vm_compute. reflexivity. Qed.

(* tests/queryparts/test_having.py: test_value_as_list *)
Example t_having_test_value_as_list :
  let E := env0 BSql in let W := pure_world E in
    (let x1 := conds_where W KWhere NoParts [] [((lit "id"), (VSeq KTuple [(VInt 23); (VInt 34); (VInt 45)]))] in
    (is_ok ((snd x1)))
    && (says (conds_str (text E) (lit "HAVING") (fst x1)) (lit "HAVING ""id"" IN (23, 34, 45)"))) = true.
Proof. vm_compute. reflexivity. Qed.

(* tests/queryparts/test_having.py: test_value_as_list_not_in *)
Example t_having_test_value_as_list_not_in :
  let E := env0 BSql in let W := pure_world E in
    (let x1 := mk_in RNotIn [(VInt 23); (VInt 34); (VInt 45)] in
    let x2 := conds_where W KWhere NoParts [(VStr (lit "id")); (get VNone x1)] [] in
    (is_ok (x1))
    && (is_ok ((snd x2)))
    && (says (conds_str (text E) (lit "HAVING") (fst x2)) (lit "HAVING ""id"" NOT IN (23, 34, 45)"))) = true.
Proof. vm_compute. reflexivity. Qed.

(* tests/queryparts/test_having.py: test_column_as_integer_exception *)
Example t_having_test_column_as_integer_exception :
  let E := env0 BSql in let W := pure_world E in
    (let x1 := conds_where W KWhere NoParts [(VInt 42); (VStr (lit "val"))] [] in
    (first_error [EInvalidArgument] [err_of ((snd x1))])) = true.
Proof. vm_compute. reflexivity. Qed.

(* tests/queryparts/test_having.py: test_column_as_float_exception *)
Example t_having_test_column_as_float_exception :
  let E := env0 BSql in let W := pure_world E in
    (let x1 := conds_where W KWhere NoParts [(VFloat (NFin false 5925048259759309 140737488355328)); (VStr (lit "val"))] [] in
    (first_error [EInvalidArgument] [err_of ((snd x1))])) = true.
Proof. vm_compute. reflexivity. Qed.

(* tests/queryparts/test_having.py: test_column_as_boolean_exception *)
Example t_having_test_column_as_boolean_exception :
  let E := env0 BSql in let W := pure_world E in
    (let x1 := conds_where W KWhere NoParts [(VBool true); (VStr (lit "val"))] [] in
    (first_error [EInvalidArgument] [err_of ((snd x1))])) = true.
Proof. vm_compute. reflexivity. Qed.

(* tests/queryparts/test_having.py: test_simple_or *)
Example t_having_test_simple_or :
  let E := env0 BSql in let W := pure_world E in
    (let x1 := mk_Q W [] [((lit "x"), (VStr (lit "y")))] in
    let x2 := mk_Q W [] [((lit "y"), (VStr (lit "x")))] in
    let x3 := py_binop OpOr (get VNone x1) (get VNone x2) in
    let x4 := conds_where W KWhere NoParts [(get VNone x3)] [] in
    (is_ok (x1))
    && (is_ok (x2))
    && (is_ok (x3))
    && (is_ok ((snd x4)))
    && (says (conds_str (text E) (lit "HAVING") (fst x4)) (lit "HAVING (""x"" = 'y' OR ""y"" = 'x')"))) = true.
Proof. vm_compute. reflexivity. Qed.

(* tests/queryparts/test_having.py: test_simple_and *)
Example t_having_test_simple_and :
  let E := env0 BSql in let W := pure_world E in
    (let x1 := mk_Q W [] [((lit "x"), (VStr (lit "y")))] in
    let x2 := mk_Q W [] [((lit "y"), (VStr (lit "x")))] in
    let x3 := py_binop OpAnd (get VNone x1) (get VNone x2) in
    let x4 := conds_where W KWhere NoParts [(get VNone x3)] [] in
    (is_ok (x1))
    && (is_ok (x2))
    && (is_ok (x3))
    && (is_ok ((snd x4)))
    && (says (conds_str (text E) (lit "HAVING") (fst x4)) (lit "HAVING (""x"" = 'y' AND ""y"" = 'x')"))) = true.
Proof. vm_compute. reflexivity. Qed.

(* tests/queryparts/test_having.py: test_more_complicated *)
Example t_having_test_more_complicated :
  let E := env0 BSql in let W := pure_world E in
    (let x1 := mk_Q W [] [((lit "a"), (VInt 1))] in
    let x2 := mk_Q W [] [((lit "b"), (VInt 2))] in
    let x3 := py_binop OpAnd (get VNone x1) (get VNone x2) in
    let x4 := mk_Q W [] [((lit "c"), (VInt 3))] in
    let x5 := py_binop OpOr (get VNone x3) (get VNone x4) in
    let x6 := conds_where W KWhere NoParts [(get VNone x5)] [] in
    (is_ok (x1))
    && (is_ok (x2))
    && (is_ok (x3))
    && (is_ok (x4))
    && (is_ok (x5))
    && (is_ok ((snd x6)))
    && (says (conds_str (text E) (lit "HAVING") (fst x6)) (lit "HAVING ((""a"" = 1 AND ""b"" = 2) OR ""c"" = 3)"))) = true.
Proof. vm_compute. reflexivity. Qed.

(* tests/queryparts/test_having.py: test_more_conditions_in_q *)
Example t_having_test_more_conditions_in_q :
  let E := env0 BSql in let W := pure_world E in
    (let x1 := mk_Q W [] [((lit "a"), (VInt 42)); ((lit "b"), (VInt 24))] in
    let x2 := mk_Q W [] [((lit "x"), (VStr (lit "y")))] in
    let x3 := py_binop OpOr (get VNone x1) (get VNone x2) in
    let x4 := conds_where W KWhere NoParts [(get VNone x3)] [] in
    (is_ok (x1))
    && (is_ok (x2))
    && (is_ok (x3))
    && (is_ok ((snd x4)))
    && (says (conds_str (text E) (lit "HAVING") (fst x4)) (lit "HAVING ((""a"" = 42 AND ""b"" = 24) OR ""x"" = 'y')"))) = true.
Proof. vm_compute. reflexivity. Qed.

(* tests/queryparts/test_limit.py: test_is_not_set *)
Example t_limit_test_is_not_set :
  let E := env0 BSql in let W := pure_world E in
    ((negb (limit_set (MkLimits None None)))) = true.
Proof. vm_compute. reflexivity. Qed.

(* tests/queryparts/test_limit.py: test_is_set *)
Example t_limit_test_is_set :
  let E := env0 BSql in let W := pure_world E in
    (let x1 := set_limit (MkLimits None None) (VInt 42) VNone in
    (is_ok ((snd x1)))
    && (limit_set (fst x1))) = true.
Proof. vm_compute. reflexivity. Qed.

(* tests/queryparts/test_limit.py: test_limit *)
Example t_limit_test_limit :
  let E := env0 BSql in let W := pure_world E in
    (let x1 := set_limit (MkLimits None None) (VInt 10) VNone in
    (is_ok ((snd x1)))
    && (says (Ok (limit_str (fst x1))) (lit "LIMIT 10"))) = true.
Proof. vm_compute. reflexivity. Qed.

(* tests/queryparts/test_limit.py: test_offset *)
Example t_limit_test_offset :
  let E := env0 BSql in let W := pure_world E in
    (let x1 := set_offset (MkLimits None None) (VInt 50) in
    (is_ok ((snd x1)))
    && (says (Ok (limit_str (fst x1))) (lit "OFFSET 50"))) = true.
Proof. vm_compute. reflexivity. Qed.

(* tests/queryparts/test_limit.py: test_limit_and_offset *)
Example t_limit_test_limit_and_offset :
  let E := env0 BSql in let W := pure_world E in
    (let x1 := set_limit (MkLimits None None) (VInt 10) VNone in
    let x2 := set_offset (fst x1) (VInt 50) in
    (is_ok ((snd x1)))
    && (is_ok ((snd x2)))
    && (says (Ok (limit_str (fst x2))) (lit "LIMIT 10 OFFSET 50"))) = true.
Proof. vm_compute. reflexivity. Qed.

(* tests/queryparts/test_limit.py: test_limit_and_offset_in_one *)
Example t_limit_test_limit_and_offset_in_one :
  let E := env0 BSql in let W := pure_world E in
    (let x1 := set_limit (MkLimits None None) (VInt 5) (VInt 15) in
    (is_ok ((snd x1)))
    && (says (Ok (limit_str (fst x1))) (lit "LIMIT 5 OFFSET 15"))) = true.
Proof. vm_compute. reflexivity. Qed.

(* tests/queryparts/test_limit.py: test_inline *)
Example t_limit_test_inline :
  let E := env0 BSql in let W := pure_world E in
    (let x1 := set_limit (MkLimits None None) (VInt 3) VNone in
    let x2 := set_offset (fst x1) (VInt 12) in
    (is_ok ((snd x1)))
    && (is_ok ((snd x2)))
    && (says (Ok (limit_str (fst x2))) (lit "LIMIT 3 OFFSET 12"))) = true.
Proof. vm_compute. reflexivity. Qed.

(* tests/queryparts/test_limit.py: test_inline_invert *)
Example t_limit_test_inline_invert :
  let E := env0 BSql in let W := pure_world E in
    (let x1 := set_offset (MkLimits None None) (VInt 16) in
    let x2 := set_limit (fst x1) (VInt 4) VNone in
    (is_ok ((snd x1)))
    && (is_ok ((snd x2)))
    && (says (Ok (limit_str (fst x2))) (lit "LIMIT 4 OFFSET 16"))) = true.
Proof. vm_compute. reflexivity. Qed.

(* tests/queryparts/test_limit.py: test_copy *)
Example t_limit_test_copy :
  let E := env0 BSql in let W := pure_world E in
    (let x1 := set_limit (MkLimits None None) (VInt 3) VNone in
    let x2 := set_offset (fst x1) (VInt 12) in
    (is_ok ((snd x1)))
    && (is_ok ((snd x2)))
    && (says (Ok (limit_str (fst x1))) (lit "LIMIT 3"))
    && (says (Ok (limit_str (fst x2))) (lit "LIMIT 3 OFFSET 12"))) = true.
Proof. vm_compute. reflexivity. Qed.

(* tests/queryparts/test_limit.py: test_equals *)
Example t_limit_test_equals :
  let E := env0 BSql in let W := pure_world E in
    (let x1 := set_limit (MkLimits None None) (VInt 3) VNone in
    (is_ok ((snd x1)))
    && (yes (limits_eqv (fst x1) (fst x1)))) = true.
Proof. vm_compute. reflexivity. Qed.

(* tests/queryparts/test_limit.py: test_not_equals *)
Example t_limit_test_not_equals :
  let E := env0 BSql in let W := pure_world E in
    (let x1 := set_limit (MkLimits None None) (VInt 3) VNone in
    let x2 := set_offset (fst x1) (VInt 12) in
    (is_ok ((snd x1)))
    && (is_ok ((snd x2)))
    && (negb (yes (limits_eqv (fst x2) (fst x1))))) = true.
Proof. vm_compute. reflexivity. Qed.

(* tests/queryparts/test_limit.py: test_limit_string_exception *)
Example t_limit_test_limit_string_exception :
  let E := env0 BSql in let W := pure_world E in
    (let x1 := set_limit (MkLimits None None) (VStr (lit "limit")) VNone in
    (first_error [EInvalidArgument] [err_of ((snd x1))])) = true.
Proof. vm_compute. reflexivity. Qed.

(* tests/queryparts/test_limit.py: test_limit_float_exception *)
Example t_limit_test_limit_float_exception :
  let E := env0 BSql in let W := pure_world E in
    (let x1 := set_limit (MkLimits None None) (VFloat (NFin false 5404319552844595 4503599627370496)) VNone in
    (first_error [EInvalidArgument] [err_of ((snd x1))])) = true.
Proof. vm_compute. reflexivity. Qed.

(* tests/queryparts/test_limit.py: test_limit_boolean_exception *)
Example t_limit_test_limit_boolean_exception :
  let E := env0 BSql in let W := pure_world E in
    (let x1 := set_limit (MkLimits None None) (VBool false) VNone in
    (first_error [EInvalidArgument] [err_of ((snd x1))])) = true.
Proof. vm_compute. reflexivity. Qed.

(* tests/queryparts/test_limit.py: test_offset_string_exception *)
Example t_limit_test_offset_string_exception :
  let E := env0 BSql in let W := pure_world E in
    (let x1 := set_offset (MkLimits None None) (VStr (lit "offset")) in
    (first_error [EInvalidArgument] [err_of ((snd x1))])) = true.
Proof. vm_compute. reflexivity. Qed.

(* tests/queryparts/test_limit.py: test_offset_float_exception *)
Example t_limit_test_offset_float_exception :
  let E := env0 BSql in let W := pure_world E in
    (let x1 := set_offset (MkLimits None None) (VFloat (NFin false 5404319552844595 4503599627370496)) in
    (first_error [EInvalidArgument] [err_of ((snd x1))])) = true.
Proof. vm_compute. reflexivity. Qed.

(* tests/queryparts/test_limit.py: test_offset_boolean_exception *)
Example t_limit_test_offset_boolean_exception :
  let E := env0 BSql in let W := pure_world E in
    (let x1 := set_offset (MkLimits None None) (VBool false) in
    (first_error [EInvalidArgument] [err_of ((snd x1))])) = true.
Proof. vm_compute. reflexivity. Qed.

(* tests/queryparts/test_orderby.py: test_is_not_set *)
Example t_orderby_test_is_not_set :
  let E := env0 BSql in let W := pure_world E in
    ((negb (negb (is_nilb NoOrders)))) = true.
Proof. vm_compute. reflexivity. Qed.

(* tests/queryparts/test_orderby.py: test_is_set *)
Example t_orderby_test_is_set :
  let E := env0 BSql in let W := pure_world E in
    (let x1 := orders_add W NoOrders [(VStr (lit "id"))] [] in
    (is_ok ((snd x1)))
    && (negb (is_nilb (fst x1)))) = true.
Proof. vm_compute. reflexivity. Qed.

(* tests/queryparts/test_orderby.py: test_simply *)
Example t_orderby_test_simply :
  let E := env0 BSql in let W := pure_world E in
    (let x1 := orders_add W NoOrders [(VStr (lit "id"))] [] in
    (is_ok ((snd x1)))
    && (says (orders_str E (text E) (lit "ORDER BY") (fst x1)) (lit "ORDER BY ""id"""))) = true.
Proof. vm_compute. reflexivity. Qed.

(* tests/queryparts/test_orderby.py: test_more_columns *)
Example t_orderby_test_more_columns :
  let E := env0 BSql in let W := pure_world E in
    (let x1 := orders_add W NoOrders [(VStr (lit "id")); (VSeq KList [(VStr (lit "name")); (VStr (lit "desc"))])] [] in
    (is_ok ((snd x1)))
    && (says (orders_str E (text E) (lit "ORDER BY") (fst x1)) (lit "ORDER BY ""id"", ""name"" DESC"))) = true.
Proof. vm_compute. reflexivity. Qed.

(* tests/queryparts/test_orderby.py: test_asc *)
Example t_orderby_test_asc :
  let E := env0 BSql in let W := pure_world E in
    (let x1 := orders_add W NoOrders [(VSeq KList [(VStr (lit "name")); (VStr (lit "asc"))])] [] in
    (is_ok ((snd x1)))
    && (says (orders_str E (text E) (lit "ORDER BY") (fst x1)) (lit "ORDER BY ""name"""))) = true.
Proof. vm_compute. reflexivity. Qed.

(* tests/queryparts/test_orderby.py: test_desc *)
Example t_orderby_test_desc :
  let E := env0 BSql in let W := pure_world E in
    (let x1 := orders_add W NoOrders [(VSeq KList [(VStr (lit "name")); (VStr (lit "desc"))])] [] in
    (is_ok ((snd x1)))
    && (says (orders_str E (text E) (lit "ORDER BY") (fst x1)) (lit "ORDER BY ""name"" DESC"))) = true.
Proof. vm_compute. reflexivity. Qed.

(* tests/queryparts/test_orderby.py: test_order_by_number *)
Example t_orderby_test_order_by_number :
  let E := env0 BSql in let W := pure_world E in
    (let x1 := orders_add W NoOrders [(VInt 1)] [] in
    (is_ok ((snd x1)))
    && (says (orders_str E (text E) (lit "ORDER BY") (fst x1)) (lit "ORDER BY 1"))) = true.
Proof. vm_compute. reflexivity. Qed.

(* tests/queryparts/test_orderby.py: test_by_dictionary *)
Example t_orderby_test_by_dictionary :
  let E := env0 BSql in let W := pure_world E in
    (let x1 := orders_add W NoOrders [(VDict [((VStr (lit "id")), (VStr (lit "ASC"))); ((VStr (lit "name")), (VStr (lit "DESC")))])] [] in
    (is_ok ((snd x1)))
    && (says (orders_str E (text E) (lit "ORDER BY") (fst x1)) (lit "ORDER BY ""id"", ""name"" DESC"))) = true.
Proof. vm_compute. reflexivity. Qed.

(* tests/queryparts/test_orderby.py: test_by_kwds *)
Example t_orderby_test_by_kwds :
  let E := env0 BSql in let W := pure_world E in
    (let x1 := orders_add W NoOrders [] [((lit "id"), (VStr (lit "ASC"))); ((lit "name"), (VStr (lit "DESC")))] in
    (is_ok ((snd x1)))
    && (says (orders_str E (text E) (lit "ORDER BY") (fst x1)) (lit "ORDER BY ""id"", ""name"" DESC"))) = true.
Proof. vm_compute. reflexivity. Qed.

(* tests/queryparts/test_orderby.py: test_str *)
Example t_orderby_test_str :
  let E := env0 BSql in let W := pure_world E in
    (let x1 := orders_add W NoOrders [(VStr [353; 269; 345; 382])] [] in
    (is_ok ((snd x1)))
    && (says (orders_str E (text E) (lit "ORDER BY") (fst x1)) [79; 82; 68; 69; 82; 32; 66; 89; 32; 34; 353; 269; 345; 382; 34])) = true.
Proof. vm_compute. reflexivity. Qed.

(* tests/queryparts/test_orderby.py: test_column_name_as_table_and_column *)
Example t_orderby_test_column_name_as_table_and_column :
  let E := env0 BSql in let W := pure_world E in
    (let x1 := orders_add W NoOrders [(VStr (lit "table.column"))] [] in
    (is_ok ((snd x1)))
    && (says (orders_str E (text E) (lit "ORDER BY") (fst x1)) (lit "ORDER BY ""table"".""column"""))) = true.
Proof. vm_compute. reflexivity. Qed.

(* tests/queryparts/test_orderby.py: test_column_name_as_table_and_column_with_dot_in_name *)
Example t_orderby_test_column_name_as_table_and_column_with_dot_in_name :
  let E := env0 BSql in let W := pure_world E in
    (let x1 := orders_add W NoOrders [(VStr (lit "table.""column."""))] [] in
    (is_ok ((snd x1)))
    && (says (orders_str E (text E) (lit "ORDER BY") (fst x1)) (lit "ORDER BY ""table"".""column."""))) = true.
Proof. vm_compute. reflexivity. Qed.

(* tests/queryparts/test_orderby.py: test_more_same_columns_print_as_one *)
Example t_orderby_test_more_same_columns_print_as_one :
  let E := env0 BSql in let W := pure_world E in
    (let x1 := orders_add W NoOrders [(VStr (lit "col")); (VStr (lit "col"))] [] in
    (is_ok ((snd x1)))
    && (says (orders_str E (text E) (lit "ORDER BY") (fst x1)) (lit "ORDER BY ""col"""))) = true.
Proof. vm_compute. reflexivity. Qed.

(* tests/queryparts/test_orderby.py: test_more_same_columns_with_diff_asc_print_as_one *)
Example t_orderby_test_more_same_columns_with_diff_asc_print_as_one :
  let E := env0 BSql in let W := pure_world E in
    (let x1 := orders_add W NoOrders [(VStr (lit "col")); (VSeq KTuple [(VStr (lit "col")); (VStr (lit "DESC"))])] [] in
    (is_ok ((snd x1)))
    && (says (orders_str E (text E) (lit "ORDER BY") (fst x1)) (lit "ORDER BY ""col"" DESC"))) = true.
Proof. vm_compute. reflexivity. Qed.

(* tests/queryparts/test_orderby.py: test_copy *)
Example t_orderby_test_copy :
  let E := env0 BSql in let W := pure_world E in
    (let x1 := orders_add W NoOrders [(VStr (lit "name"))] [] in
    let x2 := orders_add W (fst x1) [(VStr (lit "surname"))] [] in
    (is_ok ((snd x1)))
    && (is_ok ((snd x2)))
    && (says (orders_str E (text E) (lit "ORDER BY") (fst x1)) (lit "ORDER BY ""name"""))
    && (says (orders_str E (text E) (lit "ORDER BY") (fst x2)) (lit "ORDER BY ""name"", ""surname"""))) = true.
Proof. vm_compute. reflexivity. Qed.

(* tests/queryparts/test_orderby.py: test_equals *)
Example t_orderby_test_equals :
  let E := env0 BSql in let W := pure_world E in
    (let x1 := orders_add W NoOrders [(VStr (lit "name"))] [] in
    (is_ok ((snd x1)))
    && (yes (list_eq (ord_eq (py_eq E)) (fst x1) (fst x1)))) = true.
Proof. vm_compute. reflexivity. Qed.

(* tests/queryparts/test_orderby.py: test_not_equals *)
Example t_orderby_test_not_equals :
  let E := env0 BSql in let W := pure_world E in
    (let x1 := orders_add W NoOrders [(VStr (lit "name"))] [] in
    let x2 := orders_add W (fst x1) [(VStr (lit "surname"))] [] in
    (is_ok ((snd x1)))
    && (is_ok ((snd x2)))
    && (negb (yes (list_eq (ord_eq (py_eq E)) (fst x2) (fst x1))))) = true.
Proof. vm_compute. reflexivity. Qed.

(* tests/queryparts/test_orderby.py: test_name_as_float_exception *)
Example t_orderby_test_name_as_float_exception :
  let E := env0 BSql in let W := pure_world E in
    (let x1 := orders_add W NoOrders [(VFloat (NFin false 5925048259759309 140737488355328))] [] in
    (first_error [EInvalidArgument] [err_of ((snd x1))])) = true.
Proof. vm_compute. reflexivity. Qed.

(* tests/queryparts/test_orderby.py: test_name_as_boolean_exception *)
Example t_orderby_test_name_as_boolean_exception :
  let E := env0 BSql in let W := pure_world E in
    (let x1 := orders_add W NoOrders [(VBool true)] [] in
    (first_error [EInvalidArgument] [err_of ((snd x1))])) = true.
Proof. vm_compute. reflexivity. Qed.

(* tests/queryparts/test_orderby.py: test_not_asc_or_desc_exception *)
Example t_orderby_test_not_asc_or_desc_exception :
  let E := env0 BSql in let W := pure_world E in
    (let x1 := orders_add W NoOrders [(VSeq KTuple [(VStr (lit "col")); (VStr (lit "AAA"))])] [] in
    (first_error [EInvalidArgument] [err_of ((snd x1))])) = true.
Proof. vm_compute. reflexivity. Qed.

(* tests/queryparts/test_tables.py: test_is_not_set *)
Example t_tables_test_is_not_set :
  let E := env0 BSql in let W := pure_world E in
    ((negb (negb (is_nilb NoTables)))) = true.
Proof. vm_compute. reflexivity. Qed.

(* tests/queryparts/test_tables.py: test_is_set *)
Example t_tables_test_is_set :
  let E := env0 BSql in let W := pure_world E in
    (let x1 := tables_set W NoTables [(VStr (lit "table"))] [] in
    (is_ok ((snd x1)))
    && (negb (is_nilb (fst x1)))) = true.
Proof. vm_compute. reflexivity. Qed.

(* tests/queryparts/test_tables.py: test_simple *)
Example t_tables_test_simple :
  let E := env0 BSql in let W := pure_world E in
    (let x1 := tables_set W NoTables [(VStr (lit "table"))] [] in
    (is_ok ((snd x1)))
    && (says (tables_str E (text E) [] (fst x1)) (lit """table"""))) = true.
Proof. vm_compute. reflexivity. Qed.

(* tests/queryparts/test_tables.py: test_simple_as *)
Example t_tables_test_simple_as :
  let E := env0 BSql in let W := pure_world E in
    (let x1 := tables_set W NoTables [(VSeq KTuple [(VStr (lit "table")); (VStr (lit "t1"))])] [] in
    (is_ok ((snd x1)))
    && (says (tables_str E (text E) [] (fst x1)) (lit """table"" AS ""t1"""))) = true.
Proof. vm_compute. reflexivity. Qed.

(* tests/queryparts/test_tables.py: test_more_tables *)
Example t_tables_test_more_tables :
  let E := env0 BSql in let W := pure_world E in
    (let x1 := tables_set W NoTables [(VStr (lit "user")); (VStr (lit "country"))] [] in
    (is_ok ((snd x1)))
    && (says (tables_str E (text E) [] (fst x1)) (lit """user"", ""country"""))) = true.
Proof. vm_compute. reflexivity. Qed.

(* tests/queryparts/test_tables.py: test_more_tables_with_as *)
Example t_tables_test_more_tables_with_as :
  let E := env0 BSql in let W := pure_world E in
    (let x1 := tables_set W NoTables [(VSeq KTuple [(VStr (lit "user")); (VStr (lit "u"))]); (VSeq KTuple [(VStr (lit "country")); (VStr (lit "c"))])] [] in
    (is_ok ((snd x1)))
    && (says (tables_str E (text E) [] (fst x1)) (lit """user"" AS ""u"", ""country"" AS ""c"""))) = true.
Proof. vm_compute. reflexivity. Qed.

(* tests/queryparts/test_tables.py: test_simple_as_by_dictionary *)
Example t_tables_test_simple_as_by_dictionary :
  let E := env0 BSql in let W := pure_world E in
    (let x1 := tables_set W NoTables [(VDict [((VStr (lit "table")), (VStr (lit "t1")))])] [] in
    (is_ok ((snd x1)))
    && (says (tables_str E (text E) [] (fst x1)) (lit """table"" AS ""t1"""))) = true.
Proof. vm_compute. reflexivity. Qed.

(* tests/queryparts/test_tables.py: test_more_tables_with_as_by_dictionary *)
Example t_tables_test_more_tables_with_as_by_dictionary :
  let E := env0 BSql in let W := pure_world E in
    (let x1 := tables_set W NoTables [(VDict [((VStr (lit "user")), (VStr (lit "u"))); ((VStr (lit "country")), (VStr (lit "c")))])] [] in
    (is_ok ((snd x1)))
    && (says (tables_str E (text E) [] (fst x1)) (lit """country"" AS ""c"", ""user"" AS ""u"""))) = true.
Proof. vm_compute. reflexivity. Qed.

(* tests/queryparts/test_tables.py: test_more_tables_with_as_by_kwds *)
Example t_tables_test_more_tables_with_as_by_kwds :
  let E := env0 BSql in let W := pure_world E in
    (let x1 := tables_set W NoTables [] [((lit "user"), (VStr (lit "u"))); ((lit "country"), (VStr (lit "c")))] in
    (is_ok ((snd x1)))
    && (says (tables_str E (text E) [] (fst x1)) (lit """country"" AS ""c"", ""user"" AS ""u"""))) = true.
Proof. vm_compute. reflexivity. Qed.

(* tests/queryparts/test_tables.py: test_str *)
Example t_tables_test_str :
  let E := env0 BSql in let W := pure_world E in
    (let x1 := tables_set W NoTables [(VStr [353; 269; 345; 382])] [] in
    (is_ok ((snd x1)))
    && (says (tables_str E (text E) [] (fst x1)) [34; 353; 269; 345; 382; 34])) = true.
Proof. vm_compute. reflexivity. Qed.

(* tests/queryparts/test_tables.py: test_custom_one_table *)
Example t_tables_test_custom_one_table :
  let E := env0 BSql in let W := pure_world E in
    (let x1 := mk_custom W (VStr (lit """custom"" JOIN ""sql""")) in
    let x2 := tables_set W NoTables [(get VNone x1)] [] in
    (is_ok (x1))
    && (is_ok ((snd x2)))
    && (says (tables_str E (text E) [] (fst x2)) (lit """custom"" JOIN ""sql"""))) = true.
Proof. vm_compute. reflexivity. Qed.

(* tests/queryparts/test_tables.py: test_custom_more_tables *)
Example t_tables_test_custom_more_tables :
  let E := env0 BSql in let W := pure_world E in
    (let x1 := mk_custom W (VStr (lit """custom"" JOIN ""sql""")) in
    let x2 := tables_set W NoTables [(get VNone x1); (VStr (lit "id"))] [] in
    (is_ok (x1))
    && (is_ok ((snd x2)))
    && (says (tables_str E (text E) [] (fst x2)) (lit """custom"" JOIN ""sql"", ""id"""))) = true.
Proof. vm_compute. reflexivity. Qed.

(* tests/queryparts/test_tables.py: test_custom_in_column_with_as *)
Example t_tables_test_custom_in_column_with_as :
  let E := env0 BSql in let W := pure_world E in
    (let x1 := mk_custom W (VStr (lit """custom""")) in
    let x2 := tables_set W NoTables [(VDict [((get VNone x1), (VStr (lit "x")))])] [] in
    (is_ok (x1))
    && (is_ok ((snd x2)))
    && (says (tables_str E (text E) [] (fst x2)) (lit """custom"" AS ""x"""))) = true.
Proof. vm_compute. reflexivity. Qed.

(* tests/queryparts/test_tables.py: test_more_same_tables_print_as_one *)
Example t_tables_test_more_same_tables_print_as_one :
  let E := env0 BSql in let W := pure_world E in
    (let x1 := tables_set W NoTables [(VStr (lit "tab")); (VStr (lit "tab"))] [] in
    (is_ok ((snd x1)))
    && (says (tables_str E (text E) [] (fst x1)) (lit """tab"""))) = true.
Proof. vm_compute. reflexivity. Qed.

(* tests/queryparts/test_tables.py: test_more_same_tables_with_diff_as_print_as_more *)
Example t_tables_test_more_same_tables_with_diff_as_print_as_more :
  let E := env0 BSql in let W := pure_world E in
    (let x1 := tables_set W NoTables [(VStr (lit "tab")); (VSeq KTuple [(VStr (lit "tab")); (VStr (lit "tab2"))])] [] in
    (is_ok ((snd x1)))
    && (says (tables_str E (text E) [] (fst x1)) (lit """tab"", ""tab"" AS ""tab2"""))) = true.
Proof. vm_compute. reflexivity. Qed.

(* tests/queryparts/test_tables.py: test_copy *)
Example t_tables_test_copy :
  let E := env0 BSql in let W := pure_world E in
    (let x1 := tables_set W NoTables [(VStr (lit "tab"))] [] in
    let x2 := tables_set W (fst x1) [(VStr (lit "tab2"))] [] in
    (is_ok ((snd x1)))
    && (is_ok ((snd x2)))
    && (says (tables_str E (text E) [] (fst x1)) (lit """tab"""))
    && (says (tables_str E (text E) [] (fst x2)) (lit """tab"", ""tab2"""))) = true.
Proof. vm_compute. reflexivity. Qed.

(* tests/queryparts/test_tables.py: test_equals *)
Example t_tables_test_equals :
  let E := env0 BSql in let W := pure_world E in
    (let x1 := tables_set W NoTables [(VStr (lit "tab"))] [] in
    (is_ok ((snd x1)))
    && (yes (list_eq (table_eq (py_eq E)) (fst x1) (fst x1)))) = true.
Proof. vm_compute. reflexivity. Qed.

(* tests/queryparts/test_tables.py: test_not_equals *)
Example t_tables_test_not_equals :
  let E := env0 BSql in let W := pure_world E in
    (let x1 := tables_set W NoTables [(VStr (lit "tab"))] [] in
    let x2 := tables_set W (fst x1) [(VStr (lit "tab2"))] [] in
    (is_ok ((snd x1)))
    && (is_ok ((snd x2)))
    && (negb (yes (list_eq (table_eq (py_eq E)) (fst x2) (fst x1))))) = true.
Proof. vm_compute. reflexivity. Qed.

(* tests/queryparts/test_tables.py: test_name_as_integer_exception *)
Example t_tables_test_name_as_integer_exception :
  let E := env0 BSql in let W := pure_world E in
    (let x1 := tables_set W NoTables [(VInt 42)] [] in
    (first_error [EInvalidArgument] [err_of ((snd x1))])) = true.
Proof. vm_compute. reflexivity. Qed.

(* tests/queryparts/test_tables.py: test_name_as_float_exception *)
Example t_tables_test_name_as_float_exception :
  let E := env0 BSql in let W := pure_world E in
    (let x1 := tables_set W NoTables [(VFloat (NFin false 5925048259759309 140737488355328))] [] in
    (first_error [EInvalidArgument] [err_of ((snd x1))])) = true.
Proof. vm_compute. reflexivity. Qed.

(* tests/queryparts/test_tables.py: test_name_as_boolean_exception *)
Example t_tables_test_name_as_boolean_exception :
  let E := env0 BSql in let W := pure_world E in
    (let x1 := tables_set W NoTables [(VBool true)] [] in
    (first_error [EInvalidArgument] [err_of ((snd x1))])) = true.
Proof. vm_compute. reflexivity. Qed.

(* tests/queryparts/test_tables.py: testIN *)
Example t_tables_testIN :
  let E := env0 BSql in let W := pure_world E in
    (let x1 := tables_set W NoTables [(VStr (lit "t1"))] [] in
    let x2 := tables_join W JInner (fst x1) (VStr (lit "t2")) in
    let x3 := tables_on W (fst x2) [(VStr (lit "t2.id")); (VSeq KList [(VInt 3); (VInt 4)])] [] in
    (is_ok ((snd x1)))
    && (is_ok ((snd x2)))
    && (is_ok ((snd x3)))
    && (says (tables_str E (text E) [] (fst x3)) (lit """t1"" JOIN ""t2"" ON ""t2"".""id"" IN (3, 4)"))) = true.
Proof. vm_compute. reflexivity. Qed.

(* tests/queryparts/test_tables.py: testGT *)
Example t_tables_testGT :
  let E := env0 BSql in let W := pure_world E in
    (let x1 := tables_set W NoTables [(VStr (lit "t1"))] [] in
    let x2 := tables_join W JInner (fst x1) (VStr (lit "t2")) in
    let x3 := mk_rel RGe (VInt 42) in
    let x4 := tables_on W (fst x2) [(VStr (lit "t2.id")); (get VNone x3)] [] in
    (is_ok ((snd x1)))
    && (is_ok ((snd x2)))
    && (is_ok (x3))
    && (is_ok ((snd x4)))
    && (says (tables_str E (text E) [] (fst x4)) (lit """t1"" JOIN ""t2"" ON ""t2"".""id"" >= 42"))) = true.
Proof. vm_compute. reflexivity. Qed.

(* tests/queryparts/test_tables.py: testInJoin *)
Example t_tables_testInJoin :
  let E := env0 BSql in let W := pure_world E in
    (let x1 := tables_set W NoTables [(VStr (lit "t1"))] [] in
    let x2 := mk_select_from W [(VStr (lit "t2"))] [] in
    let x3 := tables_join W JInner (fst x1) (VDict [((VSelect (get empty_select x2)), (VStr (lit "t")))]) in
    let x4 := tables_on W (fst x3) [(VStr (lit "t1.id")); (VStr (lit "t.id"))] [] in
    (is_ok ((snd x1)))
    && (is_ok (x2))
    && (is_ok ((snd x3)))
    && (is_ok ((snd x4)))
    && (says (tables_str E (text E) [] (fst x4)) (lit """t1"" JOIN (SELECT * FROM ""t2"") AS ""t"" ON ""t1"".""id"" = ""t"".""id"""))) = true.
Proof. vm_compute. reflexivity. Qed.

(* tests/queryparts/test_tables.py: testInCondition *)
Example t_tables_testInCondition :
  let E := env0 BSql in let W := pure_world E in
    (let x1 := tables_set W NoTables [(VStr (lit "t1"))] [] in
    let x2 := tables_join W JInner (fst x1) (VStr (lit "t2")) in
    let x3 := mk_select W [(VStr (lit "id"))] [] in
    let x4 := sel_step W (get empty_select x3) (SFrom [(VStr (lit "t3"))] []) in
    let x5 := tables_on W (fst x2) [(VStr (lit "t2.id")); (VSelect (fst x4))] [] in
    (is_ok ((snd x1)))
    && (is_ok ((snd x2)))
    && (is_ok (x3))
    && (is_ok ((snd x4)))
    && (is_ok ((snd x5)))
    && (says (tables_str E (text E) [] (fst x5)) (lit """t1"" JOIN ""t2"" ON ""t2"".""id"" = (SELECT ""id"" FROM ""t3"")"))) = true.
Proof. vm_compute. reflexivity. Qed.

(* tests/queryparts/test_tables.py: testInConditionWithRelationIN *)
Example t_tables_testInConditionWithRelationIN :
  let E := env0 BSql in let W := pure_world E in
    (let x1 := tables_set W NoTables [(VStr (lit "t1"))] [] in
    let x2 := tables_join W JInner (fst x1) (VStr (lit "t2")) in
    let x3 := mk_select W [(VStr (lit "id"))] [] in
    let x4 := sel_step W (get empty_select x3) (SFrom [(VStr (lit "t3"))] []) in
    let x5 := mk_in RIn [(VSelect (fst x4))] in
    let x6 := tables_on W (fst x2) [(VStr (lit "t2.id")); (get VNone x5)] [] in
    (is_ok ((snd x1)))
    && (is_ok ((snd x2)))
    && (is_ok (x3))
    && (is_ok ((snd x4)))
    && (is_ok (x5))
    && (is_ok ((snd x6)))
    && (says (tables_str E (text E) [] (fst x6)) (lit """t1"" JOIN ""t2"" ON ""t2"".""id"" IN (SELECT ""id"" FROM ""t3"")"))) = true.
Proof. vm_compute. reflexivity. Qed.

(* tests/queryparts/test_tables.py: testSimpleJoinNameWithDot1 *)
Example t_tables_testSimpleJoinNameWithDot1 :
  let E := env0 BSql in let W := pure_world E in
    (let x1 := tables_set W NoTables [(VStr (lit "t"))] [] in
    let x2 := tables_join W JInner (fst x1) (VStr (lit "a.b")) in
    let x3 := tables_on W (fst x2) [(VStr (lit "t.id")); (VStr (lit """a.b"".id"))] [] in
    (is_ok ((snd x1)))
    && (is_ok ((snd x2)))
    && (is_ok ((snd x3)))
    && (says (tables_str E (text E) [] (fst x3)) (lit """t"" JOIN ""a"".""b"" ON ""t"".""id"" = ""a.b"".""id"""))) = true.
Proof. vm_compute. reflexivity. Qed.

(* tests/queryparts/test_tables.py: testSimpleJoinNameWithDot2 *)
Example t_tables_testSimpleJoinNameWithDot2 :
  let E := env0 BSql in let W := pure_world E in
    (let x1 := tables_set W NoTables [(VStr (lit "t"))] [] in
    let x2 := tables_join W JInner (fst x1) (VStr (lit "a")) in
    let x3 := tables_on W (fst x2) [(VStr (lit "t.id")); (VStr (lit "a.""b.id"""))] [] in
    (is_ok ((snd x1)))
    && (is_ok ((snd x2)))
    && (is_ok ((snd x3)))
    && (says (tables_str E (text E) [] (fst x3)) (lit """t"" JOIN ""a"" ON ""t"".""id"" = ""a"".""b.id"""))) = true.
Proof. vm_compute. reflexivity. Qed.

(* tests/queryparts/test_tables.py: test_join_without_table_exception *)
Example t_tables_test_join_without_table_exception :
  let E := env0 BSql in let W := pure_world E in
    (let x1 := tables_join W JInner NoTables (VStr (lit "table")) in
    (first_error [EInvalidQuery] [err_of ((snd x1))])) = true.
Proof. vm_compute. reflexivity. Qed.

(* tests/queryparts/test_tables.py: test_on_without_join_exception *)
Example t_tables_test_on_without_join_exception :
  let E := env0 BSql in let W := pure_world E in
    (let x1 := tables_set W NoTables [(VStr (lit "table"))] [] in
    let x2 := tables_on W (fst x1) [(VStr (lit "a")); (VStr (lit "b"))] [] in
    (is_ok ((snd x1)))
    && (first_error [EInvalidQuery] [err_of ((snd x2))])) = true.
Proof. vm_compute. reflexivity. Qed.

(* tests/queryparts/test_tables.py: test_on_without_table_exception *)
Example t_tables_test_on_without_table_exception :
  let E := env0 BSql in let W := pure_world E in
    (let x1 := tables_on W NoTables [(VStr (lit "a")); (VStr (lit "b"))] [] in
    (first_error [EInvalidQuery] [err_of ((snd x1))])) = true.
Proof. vm_compute. reflexivity. Qed.

(* tests/queryparts/test_tables.py: test_join_without_condition *)
Example t_tables_TestSimpleJoins_test_join_without_condition :
  let E := env0 BSql in let W := pure_world E in
    (let x1 := tables_set W NoTables [(VStr (lit "user"))] [] in
    let x2 := tables_join W JInner (fst x1) (VStr (lit "user")) in
    (is_ok ((snd x1)))
    && (is_ok ((snd x2)))
    && (says (tables_str E (text E) [] (fst x2)) (lit """user"" JOIN ""user"""))) = true.
Proof. vm_compute. reflexivity. Qed.

(* tests/queryparts/test_tables.py: test_inner_join *)
Example t_tables_TestSimpleJoins_test_inner_join :
  let E := env0 BSql in let W := pure_world E in
    (let x1 := tables_set W NoTables [(VStr (lit "user"))] [] in
    let x2 := tables_join W JInner (fst x1) (VStr (lit "country")) in
    let x3 := tables_on W (fst x2) [(VStr (lit "user.country_id")); (VStr (lit "country.id"))] [] in
    (is_ok ((snd x1)))
    && (is_ok ((snd x2)))
    && (is_ok ((snd x3)))
    && (says (tables_str E (text E) [] (fst x3)) (lit """user"" JOIN ""country"" ON ""user"".""country_id"" = ""country"".""id"""))) = true.
Proof. vm_compute. reflexivity. Qed.

(* tests/queryparts/test_tables.py: test_left_join *)
Example t_tables_TestSimpleJoins_test_left_join :
  let E := env0 BSql in let W := pure_world E in
    (let x1 := tables_set W NoTables [(VStr (lit "user"))] [] in
    let x2 := tables_join W JLeft (fst x1) (VSeq KTuple [(VStr (lit "user")); (VStr (lit "parent"))]) in
    let x3 := tables_on W (fst x2) [(VStr (lit "user.parent_id")); (VStr (lit "parent.id"))] [] in
    (is_ok ((snd x1)))
    && (is_ok ((snd x2)))
    && (is_ok ((snd x3)))
    && (says (tables_str E (text E) [] (fst x3)) (lit """user"" LEFT JOIN ""user"" AS ""parent"" ON ""user"".""parent_id"" = ""parent"".""id"""))) = true.
Proof. vm_compute. reflexivity. Qed.

(* tests/queryparts/test_tables.py: test_right_join *)
Example t_tables_TestSimpleJoins_test_right_join :
  let E := env0 BSql in let W := pure_world E in
    (let x1 := tables_set W NoTables [(VStr (lit "t1"))] [] in
    let x2 := tables_join W JRight (fst x1) (VStr (lit "t2")) in
    let x3 := tables_on W (fst x2) [(VStr (lit "t1.id")); (VStr (lit "t2.id"))] [] in
    (is_ok ((snd x1)))
    && (is_ok ((snd x2)))
    && (is_ok ((snd x3)))
    && (says (tables_str E (text E) [] (fst x3)) (lit """t1"" RIGHT JOIN ""t2"" ON ""t1"".""id"" = ""t2"".""id"""))) = true.
Proof. vm_compute. reflexivity. Qed.

(* tests/queryparts/test_tables.py: test_full_join_not_supported *)
Example t_tables_TestSimpleJoins_test_full_join_not_supported :
  let E := env0 BSql in let W := pure_world E in
    (let x1 := tables_set W NoTables [(VStr (lit "user"))] [] in
    let x2 := tables_join W JFull (fst x1) (VStr (lit "country")) in
    let x3 := tables_on W (fst x2) [(VStr (lit "user.country_id")); (VStr (lit "country.id"))] [] in
    (first_error [EInvalidQuery] [err_of ((snd x1)); err_of ((snd x2)); err_of ((snd x3))])) = true.
Proof. vm_compute. reflexivity. Qed.

(* tests/queryparts/test_tables.py: test_simple_as_inner_join *)
Example t_tables_TestSimpleJoins_test_simple_as_inner_join :
  let E := env0 BSql in let W := pure_world E in
    (let x1 := tables_set W NoTables [(VSeq KTuple [(VStr (lit "user")); (VStr (lit "u"))])] [] in
    let x2 := tables_join W JInner (fst x1) (VSeq KTuple [(VStr (lit "country")); (VStr (lit "c"))]) in
    let x3 := tables_on W (fst x2) [(VStr (lit "u.country_id")); (VStr (lit "c.id"))] [] in
    (is_ok ((snd x1)))
    && (is_ok ((snd x2)))
    && (is_ok ((snd x3)))
    && (says (tables_str E (text E) [] (fst x3)) (lit """user"" AS ""u"" JOIN ""country"" AS ""c"" ON ""u"".""country_id"" = ""c"".""id"""))) = true.
Proof. vm_compute. reflexivity. Qed.

(* tests/queryparts/test_tables.py: test_simple_as_inner_join_by_dictionary *)
Example t_tables_TestSimpleJoins_test_simple_as_inner_join_by_dictionary :
  let E := env0 BSql in let W := pure_world E in
    (let x1 := tables_set W NoTables [(VDict [((VStr (lit "user")), (VStr (lit "u")))])] [] in
    let x2 := tables_join W JInner (fst x1) (VDict [((VStr (lit "country")), (VStr (lit "c")))]) in
    let x3 := tables_on W (fst x2) [(VStr (lit "u.country_id")); (VStr (lit "c.id"))] [] in
    (is_ok ((snd x1)))
    && (is_ok ((snd x2)))
    && (is_ok ((snd x3)))
    && (says (tables_str E (text E) [] (fst x3)) (lit """user"" AS ""u"" JOIN ""country"" AS ""c"" ON ""u"".""country_id"" = ""c"".""id"""))) = true.
Proof. vm_compute. reflexivity. Qed.

(* tests/queryparts/test_tables.py: test_more_inner_joins *)
Example t_tables_TestSimpleJoins_test_more_inner_joins :
  let E := env0 BSql in let W := pure_world E in
    (let x1 := tables_set W NoTables [(VStr (lit "user"))] [] in
    let x2 := tables_join W JInner (fst x1) (VStr (lit "country")) in
    let x3 := tables_on W (fst x2) [(VStr (lit "user.country_id")); (VStr (lit "country.id"))] [] in
    let x4 := tables_join W JInner (fst x3) (VStr (lit "role")) in
    let x5 := tables_on W (fst x4) [(VStr (lit "user.role_id")); (VStr (lit "role.id"))] [] in
    (is_ok ((snd x1)))
    && (is_ok ((snd x2)))
    && (is_ok ((snd x3)))
    && (is_ok ((snd x4)))
    && (is_ok ((snd x5)))
    && (says (tables_str E (text E) [] (fst x5)) (lit """user"" JOIN ""country"" ON ""user"".""country_id"" = ""country"".""id"" JOIN ""role"" ON ""user"".""role_id"" = ""role"".""id"""))) = true.
Proof. vm_compute. reflexivity. Qed.

(* tests/queryparts/test_tables.py: test_join_with_more_conditions *)
Example t_tables_TestSimpleJoins_test_join_with_more_conditions :
  let E := env0 BSql in let W := pure_world E in
    (let x1 := tables_set W NoTables [(VStr (lit "table"))] [] in
    let x2 := tables_join W JLeft (fst x1) (VStr (lit "table2")) in
    let x3 := tables_on W (fst x2) [(VStr (lit "table.id")); (VStr (lit "table2.id"))] [] in
    let x4 := tables_on W (fst x3) [(VStr (lit "table.id2")); (VStr (lit "table2.id2"))] [] in
    (is_ok ((snd x1)))
    && (is_ok ((snd x2)))
    && (is_ok ((snd x3)))
    && (is_ok ((snd x4)))
    && (says (tables_str E (text E) [] (fst x4)) (lit """table"" LEFT JOIN ""table2"" ON ""table"".""id"" = ""table2"".""id"" AND ""table"".""id2"" = ""table2"".""id2"""))) = true.
Proof. vm_compute. reflexivity. Qed.

(* tests/queryparts/test_tables.py: test_customsql *)
Example t_tables_TestSimpleJoins_test_customsql :
  let E := env0 BSql in let W := pure_world E in
    (let x1 := tables_set W NoTables [(VStr (lit "t"))] [] in
    let x2 := tables_join W JInner (fst x1) (VStr (lit "u")) in
    let x3 := mk_custom W (VStr (lit "x")) in
    let x4 := tables_on W (fst x2) [(VStr (lit "col")); (get VNone x3)] [] in
    (is_ok ((snd x1)))
    && (is_ok ((snd x2)))
    && (is_ok (x3))
    && (is_ok ((snd x4)))
    && (says (tables_str E (text E) [] (fst x4)) (lit """t"" JOIN ""u"" ON ""col"" = x"))) = true.
Proof. vm_compute. reflexivity. Qed.

(* tests/queryparts/test_tables.py: test_sqlvalue *)
Example t_tables_TestSimpleJoins_test_sqlvalue :
  let E := env0 BSql in let W := pure_world E in
    (let x1 := tables_set W NoTables [(VStr (lit "t"))] [] in
    let x2 := tables_join W JInner (fst x1) (VStr (lit "u")) in
    let x3 := tables_on W (fst x2) [(VStr (lit "col")); (VSqlV (VStr (lit "x")))] [] in
    (is_ok ((snd x1)))
    && (is_ok ((snd x2)))
    && (is_ok ((snd x3)))
    && (says (tables_str E (text E) [] (fst x3)) (lit """t"" JOIN ""u"" ON ""col"" = 'x'"))) = true.
Proof. vm_compute. reflexivity. Qed.

(* tests/queryparts/test_tables.py: test_left_and_inner_is_inner *)
Example t_tables_TestGroupingJoins_test_left_and_inner_is_inner :
  let E := env0 BSql in let W := pure_world E in
    (let x1 := tables_set W NoTables [(VStr (lit "t1"))] [] in
    let x2 := tables_join W JLeft (fst x1) (VStr (lit "t2")) in
    let x3 := tables_on W (fst x2) [(VStr (lit "t1.id")); (VStr (lit "t2.id"))] [] in
    let x4 := tables_join W JInner (fst x3) (VStr (lit "t2")) in
    let x5 := tables_on W (fst x4) [(VStr (lit "t1.id")); (VStr (lit "t2.id"))] [] in
    (is_ok ((snd x1)))
    && (is_ok ((snd x2)))
    && (is_ok ((snd x3)))
    && (is_ok ((snd x4)))
    && (is_ok ((snd x5)))
    && (says (tables_str E (text E) [] (fst x5)) (lit """t1"" JOIN ""t2"" ON ""t1"".""id"" = ""t2"".""id"""))) = true.
Proof. vm_compute. reflexivity. Qed.

(* tests/queryparts/test_tables.py: test_left_and_inner_is_inner_with_reverse_condition *)
Example t_tables_TestGroupingJoins_test_left_and_inner_is_inner_with_reverse_condition :
  let E := env0 BSql in let W := pure_world E in
    (let x1 := tables_set W NoTables [(VStr (lit "t1"))] [] in
    let x2 := tables_join W JLeft (fst x1) (VStr (lit "t2")) in
    let x3 := tables_on W (fst x2) [(VStr (lit "t1.id")); (VStr (lit "t2.id"))] [] in
    let x4 := tables_join W JInner (fst x3) (VStr (lit "t2")) in
    let x5 := tables_on W (fst x4) [(VStr (lit "t2.id")); (VStr (lit "t1.id"))] [] in
    (is_ok ((snd x1)))
    && (is_ok ((snd x2)))
    && (is_ok ((snd x3)))
    && (is_ok ((snd x4)))
    && (is_ok ((snd x5)))
    && (says (tables_str E (text E) [] (fst x5)) (lit """t1"" JOIN ""t2"" ON ""t1"".""id"" = ""t2"".""id"""))) = true.
Proof. vm_compute. reflexivity. Qed.

(* tests/queryparts/test_tables.py: test_left_and_inner_is_inner_with_reverse_condition_and_relation *)
Example t_tables_TestGroupingJoins_test_left_and_inner_is_inner_with_reverse_condition_and_relation :
  let E := env0 BSql in let W := pure_world E in
    (let x1 := tables_set W NoTables [(VStr (lit "t1"))] [] in
    let x2 := tables_join W JLeft (fst x1) (VStr (lit "t2")) in
    let x3 := mk_rel RLe (VStr (lit "t2.id")) in
    let x4 := tables_on W (fst x2) [(VStr (lit "t1.id")); (get VNone x3)] [] in
    let x5 := tables_join W JInner (fst x4) (VStr (lit "t2")) in
    let x6 := mk_rel RGe (VStr (lit "t1.id")) in
    let x7 := tables_on W (fst x5) [(VStr (lit "t2.id")); (get VNone x6)] [] in
    (is_ok ((snd x1)))
    && (is_ok ((snd x2)))
    && (is_ok (x3))
    && (is_ok ((snd x4)))
    && (is_ok ((snd x5)))
    && (is_ok (x6))
    && (is_ok ((snd x7)))
    && (says (tables_str E (text E) [] (fst x7)) (lit """t1"" JOIN ""t2"" ON ""t1"".""id"" <= ""t2"".""id"""))) = true.
Proof. vm_compute. reflexivity. Qed.

(* tests/queryparts/test_tables.py: test_left_and_inner_is_inner_with_reverse_condition_but_not_relation *)
Example t_tables_TestGroupingJoins_test_left_and_inner_is_inner_with_reverse_condition_but_not_relation :
  let E := env0 BSql in let W := pure_world E in
    (let x1 := tables_set W NoTables [(VStr (lit "t1"))] [] in
    let x2 := tables_join W JLeft (fst x1) (VStr (lit "t2")) in
    let x3 := mk_rel RLe (VStr (lit "t2.id")) in
    let x4 := tables_on W (fst x2) [(VStr (lit "t1.id")); (get VNone x3)] [] in
    let x5 := tables_join W JInner (fst x4) (VStr (lit "t2")) in
    let x6 := mk_rel RLe (VStr (lit "t1.id")) in
    let x7 := tables_on W (fst x5) [(VStr (lit "t2.id")); (get VNone x6)] [] in
    (is_ok ((snd x1)))
    && (is_ok ((snd x2)))
    && (is_ok (x3))
    && (is_ok ((snd x4)))
    && (is_ok ((snd x5)))
    && (is_ok (x6))
    && (is_ok ((snd x7)))
    && (says (tables_str E (text E) [] (fst x7)) (lit """t1"" LEFT JOIN ""t2"" ON ""t1"".""id"" <= ""t2"".""id"" JOIN ""t2"" ON ""t2"".""id"" <= ""t1"".""id"""))) = true.
Proof. vm_compute. reflexivity. Qed.

(* tests/queryparts/test_tables.py: testGroupSameJoins *)
Example t_tables_TestGroupingJoins_testGroupSameJoins :
  let E := env0 BSql in let W := pure_world E in
    (let x1 := tables_set W NoTables [(VStr (lit "t1"))] [] in
    let x2 := tables_join W JInner (fst x1) (VDict [((VStr (lit "t2")), (VStr (lit "t")))]) in
    let x3 := tables_on W (fst x2) [(VStr (lit "a")); (VStr (lit "b"))] [] in
    let x4 := tables_join W JInner (fst x3) (VDict [((VStr (lit "t2")), (VStr (lit "t")))]) in
    let x5 := tables_on W (fst x4) [(VStr (lit "a")); (VStr (lit "b"))] [] in
    (is_ok ((snd x1)))
    && (is_ok ((snd x2)))
    && (is_ok ((snd x3)))
    && (is_ok ((snd x4)))
    && (is_ok ((snd x5)))
    && (says (tables_str E (text E) [] (fst x5)) (lit """t1"" JOIN ""t2"" AS ""t"" ON ""a"" = ""b"""))) = true.
Proof. vm_compute. reflexivity. Qed.

(* tests/queryparts/test_tables.py: testGroupSameLeftJoins *)
Example t_tables_TestGroupingJoins_testGroupSameLeftJoins :
  let E := env0 BSql in let W := pure_world E in
    (let x1 := tables_set W NoTables [(VStr (lit "t1"))] [] in
    let x2 := tables_join W JLeft (fst x1) (VDict [((VStr (lit "t2")), (VStr (lit "t")))]) in
    let x3 := tables_on W (fst x2) [(VStr (lit "a")); (VStr (lit "b"))] [] in
    let x4 := tables_join W JLeft (fst x3) (VDict [((VStr (lit "t2")), (VStr (lit "t")))]) in
    let x5 := tables_on W (fst x4) [(VStr (lit "a")); (VStr (lit "b"))] [] in
    (is_ok ((snd x1)))
    && (is_ok ((snd x2)))
    && (is_ok ((snd x3)))
    && (is_ok ((snd x4)))
    && (is_ok ((snd x5)))
    && (says (tables_str E (text E) [] (fst x5)) (lit """t1"" LEFT JOIN ""t2"" AS ""t"" ON ""a"" = ""b"""))) = true.
Proof. vm_compute. reflexivity. Qed.

(* tests/queryparts/test_tables.py: testNotGroupWhenConditionIsDifferent *)
Example t_tables_TestGroupingJoins_testNotGroupWhenConditionIsDifferent :
  let E := env0 BSql in let W := pure_world E in
    (let x1 := tables_set W NoTables [(VStr (lit "t1"))] [] in
    let x2 := tables_join W JInner (fst x1) (VDict [((VStr (lit "t2")), (VStr (lit "t")))]) in
    let x3 := tables_on W (fst x2) [(VStr (lit "a")); (VStr (lit "b"))] [] in
    let x4 := tables_join W JInner (fst x3) (VDict [((VStr (lit "t2")), (VStr (lit "t")))]) in
    let x5 := tables_on W (fst x4) [(VStr (lit "c")); (VStr (lit "d"))] [] in
    (is_ok ((snd x1)))
    && (is_ok ((snd x2)))
    && (is_ok ((snd x3)))
    && (is_ok ((snd x4)))
    && (is_ok ((snd x5)))
    && (says (tables_str E (text E) [] (fst x5)) (lit """t1"" JOIN ""t2"" AS ""t"" ON ""a"" = ""b"" JOIN ""t2"" AS ""t"" ON ""c"" = ""d"""))) = true.
Proof. vm_compute. reflexivity. Qed.

(* tests/queryparts/test_tables.py: test_simple_or *)
Example t_tables_TestQObject_test_simple_or :
  let E := env0 BSql in let W := pure_world E in
    (let x1 := tables_set W NoTables [(VStr (lit "t"))] [] in
    let x2 := tables_join W JInner (fst x1) (VStr (lit "a")) in
    let x3 := mk_Q W [] [((lit "x"), (VStr (lit "y")))] in
    let x4 := mk_Q W [] [((lit "y"), (VStr (lit "x")))] in
    let x5 := py_binop OpOr (get VNone x3) (get VNone x4) in
    let x6 := tables_on W (fst x2) [(get VNone x5)] [] in
    (is_ok ((snd x1)))
    && (is_ok ((snd x2)))
    && (is_ok (x3))
    && (is_ok (x4))
    && (is_ok (x5))
    && (is_ok ((snd x6)))
    && (says (tables_str E (text E) [] (fst x6)) (lit """t"" JOIN ""a"" ON (""x"" = 'y' OR ""y"" = 'x')"))) = true.
Proof. vm_compute. reflexivity. Qed.

(* tests/queryparts/test_tables.py: test_simple_and *)
Example t_tables_TestQObject_test_simple_and :
  let E := env0 BSql in let W := pure_world E in
    (let x1 := tables_set W NoTables [(VStr (lit "t"))] [] in
    let x2 := tables_join W JInner (fst x1) (VStr (lit "a")) in
    let x3 := mk_Q W [] [((lit "x"), (VStr (lit "y")))] in
    let x4 := mk_Q W [] [((lit "y"), (VStr (lit "x")))] in
    let x5 := py_binop OpAnd (get VNone x3) (get VNone x4) in
    let x6 := tables_on W (fst x2) [(get VNone x5)] [] in
    (is_ok ((snd x1)))
    && (is_ok ((snd x2)))
    && (is_ok (x3))
    && (is_ok (x4))
    && (is_ok (x5))
    && (is_ok ((snd x6)))
    && (says (tables_str E (text E) [] (fst x6)) (lit """t"" JOIN ""a"" ON (""x"" = 'y' AND ""y"" = 'x')"))) = true.
Proof. vm_compute. reflexivity. Qed.

(* tests/queryparts/test_tables.py: test_more_complicated *)
Example t_tables_TestQObject_test_more_complicated :
  let E := env0 BSql in let W := pure_world E in
    (let x1 := tables_set W NoTables [(VStr (lit "t"))] [] in
    let x2 := tables_join W JInner (fst x1) (VStr (lit "a")) in
    let x3 := mk_Q W [] [((lit "a"), (VInt 1))] in
    let x4 := mk_Q W [] [((lit "b"), (VInt 2))] in
    let x5 := py_binop OpAnd (get VNone x3) (get VNone x4) in
    let x6 := mk_Q W [] [((lit "c"), (VInt 3))] in
    let x7 := py_binop OpOr (get VNone x5) (get VNone x6) in
    let x8 := tables_on W (fst x2) [(get VNone x7)] [] in
    (is_ok ((snd x1)))
    && (is_ok ((snd x2)))
    && (is_ok (x3))
    && (is_ok (x4))
    && (is_ok (x5))
    && (is_ok (x6))
    && (is_ok (x7))
    && (is_ok ((snd x8)))
    && (says (tables_str E (text E) [] (fst x8)) (lit """t"" JOIN ""a"" ON ((""a"" = 1 AND ""b"" = 2) OR ""c"" = 3)"))) = true.
Proof. vm_compute. reflexivity. Qed.

(* tests/queryparts/test_tables.py: test_more_conditions_in_q *)
Example t_tables_TestQObject_test_more_conditions_in_q :
  let E := env0 BSql in let W := pure_world E in
    (let x1 := tables_set W NoTables [(VStr (lit "t"))] [] in
    let x2 := tables_join W JInner (fst x1) (VStr (lit "a")) in
    let x3 := mk_Q W [] [((lit "a"), (VInt 42)); ((lit "b"), (VInt 24))] in
    let x4 := mk_Q W [] [((lit "x"), (VStr (lit "y")))] in
    let x5 := py_binop OpOr (get VNone x3) (get VNone x4) in
    let x6 := tables_on W (fst x2) [(get VNone x5)] [] in
    (is_ok ((snd x1)))
    && (is_ok ((snd x2)))
    && (is_ok (x3))
    && (is_ok (x4))
    && (is_ok (x5))
    && (is_ok ((snd x6)))
    && (says (tables_str E (text E) [] (fst x6)) (lit """t"" JOIN ""a"" ON ((""a"" = 42 AND ""b"" = 24) OR ""x"" = 'y')"))) = true.
Proof. vm_compute. reflexivity. Qed.

(* tests/queryparts/test_values.py: test_is_not_set *)
Example t_values_test_is_not_set :
  let E := env0 BSql in let W := pure_world E in
    ((negb (negb (is_nilb NoParts)))) = true.
Proof. vm_compute. reflexivity. Qed.

(* tests/queryparts/test_values.py: test_is_set *)
Example t_values_test_is_set :
  let E := env0 BSql in let W := pure_world E in
    (let x1 := values_set W NoParts [] [((lit "id"), (VInt 23))] in
    (is_ok ((snd x1)))
    && (negb (is_nilb (fst x1)))) = true.
Proof. vm_compute. reflexivity. Qed.

(* tests/queryparts/test_values.py: test_values_by_tuple *)
Example t_values_test_values_by_tuple :
  let E := env0 BSql in let W := pure_world E in
    (let x1 := values_set W NoParts [(VSeq KTuple [(VSeq KTuple [(VStr (lit "name")); (VStr (lit "Harry"))]); (VSeq KTuple [(VStr (lit "sex")); (VStr (lit "female"))]); (VSeq KTuple [(VStr (lit "age")); (VInt 20)]); (VSeq KTuple [(VStr (lit "country")); VNone])])] [] in
    (is_ok ((snd x1)))
    && (says (values_str (text E) [] (fst x1)) (lit """name"" = 'Harry', ""sex"" = 'female', ""age"" = 20, ""country"" = NULL"))) = true.
Proof. vm_compute. reflexivity. Qed.

(* tests/queryparts/test_values.py: test_values_by_list *)
Example t_values_test_values_by_list :
  let E := env0 BSql in let W := pure_world E in
    (let x1 := values_set W NoParts [(VSeq KList [(VSeq KList [(VStr (lit "name")); (VStr (lit "Harry"))]); (VSeq KList [(VStr (lit "sex")); (VStr (lit "female"))]); (VSeq KList [(VStr (lit "age")); (VInt 20)]); (VSeq KList [(VStr (lit "country")); VNone])])] [] in
    (is_ok ((snd x1)))
    && (says (values_str (text E) [] (fst x1)) (lit """name"" = 'Harry', ""sex"" = 'female', ""age"" = 20, ""country"" = NULL"))) = true.
Proof. vm_compute. reflexivity. Qed.

(* tests/queryparts/test_values.py: test_values_by_dictionary *)
Example t_values_test_values_by_dictionary :
  let E := env0 BSql in let W := pure_world E in
    (let x1 := values_set W NoParts [(VDict [((VStr (lit "name")), (VStr (lit "Alan"))); ((VStr (lit "age")), (VInt 20))])] [] in
    (is_ok ((snd x1)))
    && (says (values_str (text E) [] (fst x1)) (lit """age"" = 20, ""name"" = 'Alan'"))) = true.
Proof. vm_compute. reflexivity. Qed.

(* tests/queryparts/test_values.py: test_values_by_args *)
Example t_values_test_values_by_args :
  let E := env0 BSql in let W := pure_world E in
    (let x1 := values_set W NoParts [(VStr (lit "age")); (VInt 20)] [] in
    (is_ok ((snd x1)))
    && (says (values_str (text E) [] (fst x1)) (lit """age"" = 20"))) = true.
Proof. vm_compute. reflexivity. Qed.

(* tests/queryparts/test_values.py: test_values_by_kwargs *)
Example t_values_test_values_by_kwargs :
  let E := env0 BSql in let W := pure_world E in
    (let x1 := values_set W NoParts [] [((lit "name"), (VStr (lit "Alan")))] in
    (is_ok ((snd x1)))
    && (says (values_str (text E) [] (fst x1)) (lit """name"" = 'Alan'"))) = true.
Proof. vm_compute. reflexivity. Qed.

(* tests/queryparts/test_values.py: test_str *)
Example t_values_test_str :
  let E := env0 BSql in let W := pure_world E in
    (let x1 := values_set W NoParts [] [((lit "name"), (VStr [353; 269; 345; 382]))] in
    (is_ok ((snd x1)))
    && (says (values_str (text E) [] (fst x1)) [34; 110; 97; 109; 101; 34; 32; 61; 32; 39; 353; 269; 345; 382; 39])) = true.
Proof. vm_compute. reflexivity. Qed.

(* tests/queryparts/test_values.py: test_custom_simple *)
Example t_values_test_custom_simple :
  let E := env0 BSql in let W := pure_world E in
    (let x1 := mk_custom W (VStr (lit """age"" = ""age"" + 1")) in
    let x2 := values_set W NoParts [(get VNone x1)] [] in
    (is_ok (x1))
    && (is_ok ((snd x2)))
    && (says (values_str (text E) [] (fst x2)) (lit """age"" = ""age"" + 1"))) = true.
Proof. vm_compute. reflexivity. Qed.

(* tests/queryparts/test_values.py: test_value_as_integer *)
Example t_values_test_value_as_integer :
  let E := env0 BSql in let W := pure_world E in
    (let x1 := values_set W NoParts [(VStr (lit "col")); (VInt 42)] [] in
    (is_ok ((snd x1)))
    && (says (values_str (text E) [] (fst x1)) (lit """col"" = 42"))) = true.
Proof. vm_compute. reflexivity. Qed.

(* tests/queryparts/test_values.py: test_value_as_float *)
Example t_values_test_value_as_float :
  let E := env0 BSql in let W := pure_world E in
    (let x1 := values_set W NoParts [(VStr (lit "col")); (VFloat (NFin false 5925048259759309 140737488355328))] [] in
    (is_ok ((snd x1)))
    && (says (values_str (text E) [] (fst x1)) (lit """col"" = 42.10000"))) = true.
Proof. vm_compute. reflexivity. Qed.

(* tests/queryparts/test_values.py: test_value_as_decimal *)
Example t_values_test_value_as_decimal :
  let E := env0 BSql in let W := pure_world E in
    (let x1 := values_set W NoParts [(VStr (lit "col")); (VDec (NFin false 421 10))] [] in
    (is_ok ((snd x1)))
    && (says (values_str (text E) [] (fst x1)) (lit """col"" = 42.10000"))) = true.
Proof. vm_compute. reflexivity. Qed.

(* tests/queryparts/test_values.py: test_value_as_boolean *)
Example t_values_test_value_as_boolean :
  let E := env0 BSql in let W := pure_world E in
    (let x1 := values_set W NoParts [(VStr (lit "col")); (VBool true)] [] in
    (is_ok ((snd x1)))
    && (says (values_str (text E) [] (fst x1)) (lit """col"" = 1"))) = true.
Proof. vm_compute. reflexivity. Qed.

(* tests/queryparts/test_values.py: test_value_as_bytes *)
Example t_values_test_value_as_bytes :
  let E := env0 BSql in let W := pure_world E in
    (let x1 := values_set W NoParts [(VStr (lit "col")); (VBytes [100; 97; 116; 97])] [] in
    (is_ok ((snd x1)))
    && (says (values_str (text E) [] (fst x1)) (lit """col"" = x'64617461'"))) = true.
Proof. vm_compute. reflexivity. Qed.

(* tests/queryparts/test_values.py: test_value_as_bytes_postgresql *)
Example t_values_test_value_as_bytes_postgresql :
  let E := env0 BPostgres in let W := pure_world E in
    (let x1 := values_set W NoParts [(VStr (lit "col")); (VBytes [100; 97; 116; 97])] [] in
    (is_ok ((snd x1)))
    && (says (values_str (text E) [] (fst x1)) (lit """col"" = E'\\x64617461'"))) = true.
Proof. vm_compute. reflexivity. Qed.

(* tests/queryparts/test_values.py: test_copy *)
Example t_values_test_copy :
  let E := env0 BSql in let W := pure_world E in
    (let x1 := values_set W NoParts [(VDict [((VStr (lit "id")), (VInt 42))])] [] in
    let x2 := values_set W (fst x1) [(VDict [((VStr (lit "name")), (VStr (lit "Alan")))])] [] in
    (is_ok ((snd x1)))
    && (is_ok ((snd x2)))
    && (says (values_str (text E) [] (fst x1)) (lit """id"" = 42"))
    && (says (values_str (text E) [] (fst x2)) (lit """id"" = 42, ""name"" = 'Alan'"))) = true.
Proof. vm_compute. reflexivity. Qed.

(* tests/queryparts/test_values.py: test_equals *)
Example t_values_test_equals :
  let E := env0 BSql in let W := pure_world E in
    (let x1 := values_set W NoParts [(VDict [((VStr (lit "id")), (VInt 42))])] [] in
    (is_ok ((snd x1)))
    && (yes (list_eq (py_eq E) (fst x1) (fst x1)))) = true.
Proof. vm_compute. reflexivity. Qed.

(* tests/queryparts/test_values.py: test_not_equals *)
Example t_values_test_not_equals :
  let E := env0 BSql in let W := pure_world E in
    (let x1 := values_set W NoParts [(VDict [((VStr (lit "id")), (VInt 42))])] [] in
    let x2 := values_set W (fst x1) [(VDict [((VStr (lit "name")), (VStr (lit "Alan")))])] [] in
    (is_ok ((snd x1)))
    && (is_ok ((snd x2)))
    && (negb (yes (list_eq (py_eq E) (fst x2) (fst x1))))) = true.
Proof. vm_compute. reflexivity. Qed.

(* tests/queryparts/test_values.py: test_column_as_integer_exception *)
Example t_values_test_column_as_integer_exception :
  let E := env0 BSql in let W := pure_world E in
    (let x1 := values_set W NoParts [(VInt 42); (VStr (lit "val"))] [] in
    (first_error [EInvalidArgument] [err_of ((snd x1))])) = true.
Proof. vm_compute. reflexivity. Qed.

(* tests/queryparts/test_values.py: test_column_as_float_exception *)
Example t_values_test_column_as_float_exception :
  let E := env0 BSql in let W := pure_world E in
    (let x1 := values_set W NoParts [(VFloat (NFin false 5925048259759309 140737488355328)); (VStr (lit "val"))] [] in
    (first_error [EInvalidArgument] [err_of ((snd x1))])) = true.
Proof. vm_compute. reflexivity. Qed.

(* tests/queryparts/test_values.py: test_column_as_boolean_exception *)
Example t_values_test_column_as_boolean_exception :
  let E := env0 BSql in let W := pure_world E in
    (let x1 := values_set W NoParts [(VBool true); (VStr (lit "val"))] [] in
    (first_error [EInvalidArgument] [err_of ((snd x1))])) = true.
Proof. vm_compute. reflexivity. Qed.

(* tests/queryparts/test_where.py: test_is_not_set *)
Example t_where_test_is_not_set :
  let E := env0 BSql in let W := pure_world E in
    ((negb (negb (is_nilb NoParts)))) = true.
Proof. vm_compute. reflexivity. Qed.

(* tests/queryparts/test_where.py: test_is_set *)
Example t_where_test_is_set :
  let E := env0 BSql in let W := pure_world E in
    (let x1 := conds_where W KWhere NoParts [] [((lit "name"), (VStr (lit "Alan")))] in
    (is_ok ((snd x1)))
    && (negb (is_nilb (fst x1)))) = true.
Proof. vm_compute. reflexivity. Qed.

(* tests/queryparts/test_where.py: test_where_by_tuple *)
Example t_where_test_where_by_tuple :
  let E := env0 BSql in let W := pure_world E in
    (let x1 := mk_rel RNe (VStr (lit "female")) in
    let x2 := mk_rel RGt (VInt 20) in
    let x3 := conds_where W KWhere NoParts [(VSeq KTuple [(VSeq KTuple [(VStr (lit "name")); (VStr (lit "Harry"))]); (VSeq KTuple [(VStr (lit "sex")); (get VNone x1)]); (VSeq KTuple [(VStr (lit "age")); (get VNone x2)])])] [] in
    (is_ok (x1))
    && (is_ok (x2))
    && (is_ok ((snd x3)))
    && (says (conds_str (text E) (lit "WHERE") (fst x3)) (lit "WHERE ""name"" = 'Harry' AND ""sex"" != 'female' AND ""age"" > 20"))) = true.
Proof. vm_compute. reflexivity. Qed.

(* tests/queryparts/test_where.py: test_where_by_list *)
Example t_where_test_where_by_list :
  let E := env0 BSql in let W := pure_world E in
    (let x1 := mk_rel RLike (VStr (lit "Harry")) in
    let x2 := mk_rel RNe (VStr (lit "female")) in
    let x3 := mk_rel RLe (VInt 20) in
    let x4 := conds_where W KWhere NoParts [(VSeq KList [(VSeq KList [(VStr (lit "name")); (get VNone x1)]); (VSeq KList [(VStr (lit "sex")); (get VNone x2)]); (VSeq KList [(VStr (lit "age")); (get VNone x3)])])] [] in
    (is_ok (x1))
    && (is_ok (x2))
    && (is_ok (x3))
    && (is_ok ((snd x4)))
    && (says (conds_str (text E) (lit "WHERE") (fst x4)) (lit "WHERE ""name"" LIKE 'Harry' AND ""sex"" != 'female' AND ""age"" <= 20"))) = true.
Proof. vm_compute. reflexivity. Qed.

(* tests/queryparts/test_where.py: test_where_by_dictionary *)
Example t_where_test_where_by_dictionary :
  let E := env0 BSql in let W := pure_world E in
    (let x1 := mk_rel RLike (VStr (lit "Alan")) in
    let x2 := conds_where W KWhere NoParts [(VDict [((VStr (lit "name")), (get VNone x1)); ((VStr (lit "age")), (VInt 20))])] [] in
    (is_ok (x1))
    && (is_ok ((snd x2)))
    && (says (conds_str (text E) (lit "WHERE") (fst x2)) (lit "WHERE ""age"" = 20 AND ""name"" LIKE 'Alan'"))) = true.
Proof. vm_compute. reflexivity. Qed.

(* tests/queryparts/test_where.py: test_where_by_args *)
Example t_where_test_where_by_args :
  let E := env0 BSql in let W := pure_world E in
    (let x1 := mk_rel RLt (VInt 20) in
    let x2 := conds_where W KWhere NoParts [(VStr (lit "age")); (get VNone x1)] [] in
    (is_ok (x1))
    && (is_ok ((snd x2)))
    && (says (conds_str (text E) (lit "WHERE") (fst x2)) (lit "WHERE ""age"" < 20"))) = true.
Proof. vm_compute. reflexivity. Qed.

(* tests/queryparts/test_where.py: test_where_by_kwargs *)
Example t_where_test_where_by_kwargs :
  let E := env0 BSql in let W := pure_world E in
    (let x1 := conds_where W KWhere NoParts [] [((lit "name"), (VStr (lit "Alan")))] in
    (is_ok ((snd x1)))
    && (says (conds_str (text E) (lit "WHERE") (fst x1)) (lit "WHERE ""name"" = 'Alan'"))) = true.
Proof. vm_compute. reflexivity. Qed.

(* tests/queryparts/test_where.py: test_serial_where *)
Example t_where_test_serial_where :
  let E := env0 BSql in let W := pure_world E in
    (let x1 := conds_where W KWhere NoParts [] [((lit "name"), (VStr (lit "Alan")))] in
    let x2 := conds_where W KWhere (fst x1) [] [((lit "age"), (VInt 42))] in
    (is_ok ((snd x1)))
    && (is_ok ((snd x2)))
    && (says (conds_str (text E) (lit "WHERE") (fst x2)) (lit "WHERE ""name"" = 'Alan' AND ""age"" = 42"))) = true.
Proof. vm_compute. reflexivity. Qed.

(* tests/queryparts/test_where.py: test_str *)
Example t_where_test_str :
  let E := env0 BSql in let W := pure_world E in
    (let x1 := conds_where W KWhere NoParts [] [((lit "name"), (VStr [353; 269; 345; 382]))] in
    (is_ok ((snd x1)))
    && (says (conds_str (text E) (lit "WHERE") (fst x1)) [87; 72; 69; 82; 69; 32; 34; 110; 97; 109; 101; 34; 32; 61; 32; 39; 353; 269; 345; 382; 39])) = true.
Proof. vm_compute. reflexivity. Qed.

(* tests/queryparts/test_where.py: test_EQ *)
Example t_where_test_EQ :
  let E := env0 BSql in let W := pure_world E in
    (let x1 := mk_rel REq (VInt 12) in
    let x2 := conds_where W KWhere NoParts [(VStr (lit "col")); (get VNone x1)] [] in
    (is_ok (x1))
    && (is_ok ((snd x2)))
    && (says (conds_str (text E) (lit "WHERE") (fst x2)) (lit "WHERE ""col"" = 12"))) = true.
Proof. vm_compute. reflexivity. Qed.

(* tests/queryparts/test_where.py: test_NE *)
Example t_where_test_NE :
  let E := env0 BSql in let W := pure_world E in
    (let x1 := mk_rel RNe (VInt 12) in
    let x2 := conds_where W KWhere NoParts [(VStr (lit "col")); (get VNone x1)] [] in
    (is_ok (x1))
    && (is_ok ((snd x2)))
    && (says (conds_str (text E) (lit "WHERE") (fst x2)) (lit "WHERE ""col"" != 12"))) = true.
Proof. vm_compute. reflexivity. Qed.

(* tests/queryparts/test_where.py: test_GT *)
Example t_where_test_GT :
  let E := env0 BSql in let W := pure_world E in
    (let x1 := mk_rel RGt (VInt 12) in
    let x2 := conds_where W KWhere NoParts [(VStr (lit "col")); (get VNone x1)] [] in
    (is_ok (x1))
    && (is_ok ((snd x2)))
    && (says (conds_str (text E) (lit "WHERE") (fst x2)) (lit "WHERE ""col"" > 12"))) = true.
Proof. vm_compute. reflexivity. Qed.

(* tests/queryparts/test_where.py: test_GE *)
Example t_where_test_GE :
  let E := env0 BSql in let W := pure_world E in
    (let x1 := mk_rel RGe (VInt 12) in
    let x2 := conds_where W KWhere NoParts [(VStr (lit "col")); (get VNone x1)] [] in
    (is_ok (x1))
    && (is_ok ((snd x2)))
    && (says (conds_str (text E) (lit "WHERE") (fst x2)) (lit "WHERE ""col"" >= 12"))) = true.
Proof. vm_compute. reflexivity. Qed.

(* tests/queryparts/test_where.py: test_LT *)
Example t_where_test_LT :
  let E := env0 BSql in let W := pure_world E in
    (let x1 := mk_rel RLt (VInt 12) in
    let x2 := conds_where W KWhere NoParts [(VStr (lit "col")); (get VNone x1)] [] in
    (is_ok (x1))
    && (is_ok ((snd x2)))
    && (says (conds_str (text E) (lit "WHERE") (fst x2)) (lit "WHERE ""col"" < 12"))) = true.
Proof. vm_compute. reflexivity. Qed.

(* tests/queryparts/test_where.py: test_LE *)
Example t_where_test_LE :
  let E := env0 BSql in let W := pure_world E in
    (let x1 := mk_rel RLe (VInt 12) in
    let x2 := conds_where W KWhere NoParts [(VStr (lit "col")); (get VNone x1)] [] in
    (is_ok (x1))
    && (is_ok ((snd x2)))
    && (says (conds_str (text E) (lit "WHERE") (fst x2)) (lit "WHERE ""col"" <= 12"))) = true.
Proof. vm_compute. reflexivity. Qed.

(* tests/queryparts/test_where.py: test_LIKE *)
Example t_where_test_LIKE :
  let E := env0 BSql in let W := pure_world E in
    (let x1 := mk_rel RLike (VStr (lit "val")) in
    let x2 := conds_where W KWhere NoParts [(VStr (lit "col")); (get VNone x1)] [] in
    (is_ok (x1))
    && (is_ok ((snd x2)))
    && (says (conds_str (text E) (lit "WHERE") (fst x2)) (lit "WHERE ""col"" LIKE 'val'"))) = true.
Proof. vm_compute. reflexivity. Qed.

(* tests/queryparts/test_where.py: test_NOT_LIKE *)
Example t_where_test_NOT_LIKE :
  let E := env0 BSql in let W := pure_world E in
    (let x1 := mk_rel RNotLike (VStr (lit "val")) in
    let x2 := conds_where W KWhere NoParts [(VStr (lit "col")); (get VNone x1)] [] in
    (is_ok (x1))
    && (is_ok ((snd x2)))
    && (says (conds_str (text E) (lit "WHERE") (fst x2)) (lit "WHERE ""col"" NOT LIKE 'val'"))) = true.
Proof. vm_compute. reflexivity. Qed.

(* tests/queryparts/test_where.py: test_REGEXP *)
Example t_where_test_REGEXP :
  let E := env0 BSql in let W := pure_world E in
    (let x1 := mk_rel RRegexp (VStr (lit "val")) in
    let x2 := conds_where W KWhere NoParts [(VStr (lit "col")); (get VNone x1)] [] in
    (is_ok (x1))
    && (is_ok ((snd x2)))
    && (says (conds_str (text E) (lit "WHERE") (fst x2)) (lit "WHERE ""col"" REGEXP 'val'"))) = true.
Proof. vm_compute. reflexivity. Qed.

(* tests/queryparts/test_where.py: test_IN *)
Example t_where_test_IN :
  let E := env0 BSql in let W := pure_world E in
    (let x1 := mk_in RIn [(VSeq KRange [VInt 0; VInt 1; VInt 2])] in
    let x2 := conds_where W KWhere NoParts [(VStr (lit "col")); (get VNone x1)] [] in
    (is_ok (x1))
    && (is_ok ((snd x2)))
    && (says (conds_str (text E) (lit "WHERE") (fst x2)) (lit "WHERE ""col"" IN (0, 1, 2)"))) = true.
Proof. vm_compute. reflexivity. Qed.

(* tests/queryparts/test_where.py: test_IN_WITH_NONE *)
Example t_where_test_IN_WITH_NONE :
  let E := env0 BSql in let W := pure_world E in
    (let x1 := mk_in RIn [(VSeq KList [(VInt 0); (VInt 1); (VInt 2); VNone])] in
    let x2 := conds_where W KWhere NoParts [(VStr (lit "col")); (get VNone x1)] [] in
    (is_ok (x1))
    && (is_ok ((snd x2)))
    && (says (conds_str (text E) (lit "WHERE") (fst x2)) (lit "WHERE (""col"" IN (0, 1, 2) OR ""col"" IS NULL)"))) = true.
Proof. vm_compute. reflexivity. Qed.

(* tests/queryparts/test_where.py: test_IN_WITH_NONE_ONLY *)
Example t_where_test_IN_WITH_NONE_ONLY :
  let E := env0 BSql in let W := pure_world E in
    (let x1 := mk_in RIn [(VSeq KList [VNone])] in
    let x2 := conds_where W KWhere NoParts [(VStr (lit "col")); (get VNone x1)] [] in
    (is_ok (x1))
    && (is_ok ((snd x2)))
    && (says (conds_str (text E) (lit "WHERE") (fst x2)) (lit "WHERE ""col"" IS NULL"))) = true.
Proof. vm_compute. reflexivity. Qed.

(* tests/queryparts/test_where.py: test_NOT_IN *)
Example t_where_test_NOT_IN :
  let E := env0 BSql in let W := pure_world E in
    (let x1 := mk_in RNotIn [(VSeq KRange [VInt 0; VInt 1; VInt 2])] in
    let x2 := conds_where W KWhere NoParts [(VStr (lit "col")); (get VNone x1)] [] in
    (is_ok (x1))
    && (is_ok ((snd x2)))
    && (says (conds_str (text E) (lit "WHERE") (fst x2)) (lit "WHERE ""col"" NOT IN (0, 1, 2)"))) = true.
Proof. vm_compute. reflexivity. Qed.

(* tests/queryparts/test_where.py: test_NOT_IN_WITH_NONE *)
Example t_where_test_NOT_IN_WITH_NONE :
  let E := env0 BSql in let W := pure_world E in
    (let x1 := mk_in RNotIn [(VSeq KList [(VInt 0); (VInt 1); (VInt 2); VNone])] in
    let x2 := conds_where W KWhere NoParts [(VStr (lit "col")); (get VNone x1)] [] in
    (is_ok (x1))
    && (is_ok ((snd x2)))
    && (says (conds_str (text E) (lit "WHERE") (fst x2)) (lit "WHERE (""col"" NOT IN (0, 1, 2) AND ""col"" IS NOT NULL)"))) = true.
Proof. vm_compute. reflexivity. Qed.

(* tests/queryparts/test_where.py: test_NOT_IN_WITH_NONE_ONLY *)
Example t_where_test_NOT_IN_WITH_NONE_ONLY :
  let E := env0 BSql in let W := pure_world E in
    (let x1 := mk_in RNotIn [(VSeq KList [VNone])] in
    let x2 := conds_where W KWhere NoParts [(VStr (lit "col")); (get VNone x1)] [] in
    (is_ok (x1))
    && (is_ok ((snd x2)))
    && (says (conds_str (text E) (lit "WHERE") (fst x2)) (lit "WHERE ""col"" IS NOT NULL"))) = true.
Proof. vm_compute. reflexivity. Qed.

(* tests/queryparts/test_where.py: test_IS *)
Example t_where_test_IS :
  let E := env0 BSql in let W := pure_world E in
    (let x1 := mk_rel RIs VNone in
    let x2 := conds_where W KWhere NoParts [(VStr (lit "col")); (get VNone x1)] [] in
    (is_ok (x1))
    && (is_ok ((snd x2)))
    && (says (conds_str (text E) (lit "WHERE") (fst x2)) (lit "WHERE ""col"" IS NULL"))) = true.
Proof. vm_compute. reflexivity. Qed.

(* tests/queryparts/test_where.py: test_IS_NOT *)
Example t_where_test_IS_NOT :
  let E := env0 BSql in let W := pure_world E in
    (let x1 := mk_rel RIsNot VNone in
    let x2 := conds_where W KWhere NoParts [(VStr (lit "col")); (get VNone x1)] [] in
    (is_ok (x1))
    && (is_ok ((snd x2)))
    && (says (conds_str (text E) (lit "WHERE") (fst x2)) (lit "WHERE ""col"" IS NOT NULL"))) = true.
Proof. vm_compute. reflexivity. Qed.

(* tests/queryparts/test_where.py: test_default_relation_of_sql_value_with_number *)
Example t_where_test_default_relation_of_sql_value_with_number :
  let E := env0 BSql in let W := pure_world E in
    (let x1 := conds_where W KWhere NoParts [(VStr (lit "col")); (VSqlV (VInt 123))] [] in
    (is_ok ((snd x1)))
    && (says (conds_str (text E) (lit "WHERE") (fst x1)) (lit "WHERE ""col"" = 123"))) = true.
Proof. vm_compute. reflexivity. Qed.

(* tests/queryparts/test_where.py: test_default_relation_of_sql_value_with_none *)
Example t_where_test_default_relation_of_sql_value_with_none :
  let E := env0 BSql in let W := pure_world E in
    (let x1 := conds_where W KWhere NoParts [(VStr (lit "col")); (VSqlV VNone)] [] in
    (is_ok ((snd x1)))
    && (says (conds_str (text E) (lit "WHERE") (fst x1)) (lit "WHERE ""col"" IS NULL"))) = true.
Proof. vm_compute. reflexivity. Qed.

(* tests/queryparts/test_where.py: test_custom_simple *)
Example t_where_test_custom_simple :
  let E := env0 BSql in let W := pure_world E in
    (let x1 := mk_custom W (VStr (lit """custom"" = ""sql"" OR ""sql"" = ""custom""")) in
    let x2 := conds_where W KWhere NoParts [(get VNone x1)] [] in
    (is_ok (x1))
    && (is_ok ((snd x2)))
    && (says (conds_str (text E) (lit "WHERE") (fst x2)) (lit "WHERE ""custom"" = ""sql"" OR ""sql"" = ""custom"""))) = true.
Proof. vm_compute. reflexivity. Qed.

(* tests/queryparts/test_where.py: test_more_same_conditions_print_as_one *)
Example t_where_test_more_same_conditions_print_as_one :
  let E := env0 BSql in let W := pure_world E in
    (let x1 := conds_where W KWhere NoParts [(VSeq KTuple [(VStr (lit "age")); (VInt 20)]); (VSeq KTuple [(VStr (lit "age")); (VInt 20)])] [] in
    (is_ok ((snd x1)))
    && (says (conds_str (text E) (lit "WHERE") (fst x1)) (lit "WHERE ""age"" = 20"))) = true.
Proof. vm_compute. reflexivity. Qed.

(* tests/queryparts/test_where.py: test_more_same_conditions_with_diff_relation_print_as_more *)
Example t_where_test_more_same_conditions_with_diff_relation_print_as_more :
  let E := env0 BSql in let W := pure_world E in
    (let x1 := mk_rel RNe (VInt 20) in
    let x2 := conds_where W KWhere NoParts [(VSeq KTuple [(VStr (lit "age")); (VInt 20)]); (VSeq KTuple [(VStr (lit "age")); (get VNone x1)])] [] in
    (is_ok (x1))
    && (is_ok ((snd x2)))
    && (says (conds_str (text E) (lit "WHERE") (fst x2)) (lit "WHERE ""age"" = 20 AND ""age"" != 20"))) = true.
Proof. vm_compute. reflexivity. Qed.

(* tests/queryparts/test_where.py: test_value_as_integer *)
Example t_where_test_value_as_integer :
  let E := env0 BSql in let W := pure_world E in
    (let x1 := conds_where W KWhere NoParts [(VStr (lit "col")); (VInt 42)] [] in
    (is_ok ((snd x1)))
    && (says (conds_str (text E) (lit "WHERE") (fst x1)) (lit "WHERE ""col"" = 42"))) = true.
Proof. vm_compute. reflexivity. Qed.

(* tests/queryparts/test_where.py: test_value_as_float *)
Example t_where_test_value_as_float :
  let E := env0 BSql in let W := pure_world E in
    (let x1 := conds_where W KWhere NoParts [(VStr (lit "col")); (VFloat (NFin false 5925048259759309 140737488355328))] [] in
    (is_ok ((snd x1)))
    && (says (conds_str (text E) (lit "WHERE") (fst x1)) (lit "WHERE ""col"" = 42.10000"))) = true.
Proof. vm_compute. reflexivity. Qed.

(* tests/queryparts/test_where.py: test_value_as_decimal *)
Example t_where_test_value_as_decimal :
  let E := env0 BSql in let W := pure_world E in
    (let x1 := conds_where W KWhere NoParts [(VStr (lit "col")); (VDec (NFin false 421 10))] [] in
    (is_ok ((snd x1)))
    && (says (conds_str (text E) (lit "WHERE") (fst x1)) (lit "WHERE ""col"" = 42.10000"))) = true.
Proof. vm_compute. reflexivity. Qed.

(* tests/queryparts/test_where.py: test_value_as_boolean *)
Example t_where_test_value_as_boolean :
  let E := env0 BSql in let W := pure_world E in
    (let x1 := conds_where W KWhere NoParts [(VStr (lit "col")); (VBool true)] [] in
    (is_ok ((snd x1)))
    && (says (conds_str (text E) (lit "WHERE") (fst x1)) (lit "WHERE ""col"" = 1"))) = true.
Proof. vm_compute. reflexivity. Qed.

(* tests/queryparts/test_where.py: test_value_as_list *)
Example t_where_test_value_as_list :
  let E := env0 BSql in let W := pure_world E in
    (let x1 := conds_where W KWhere NoParts [] [((lit "id"), (VSeq KTuple [(VInt 23); (VInt 34); (VInt 45)]))] in
    (is_ok ((snd x1)))
    && (says (conds_str (text E) (lit "WHERE") (fst x1)) (lit "WHERE ""id"" IN (23, 34, 45)"))) = true.
Proof. vm_compute. reflexivity. Qed.

(* tests/queryparts/test_where.py: test_value_as_list_not_in *)
Example t_where_test_value_as_list_not_in :
  let E := env0 BSql in let W := pure_world E in
    (let x1 := mk_in RNotIn [(VInt 23); (VInt 34); (VInt 45)] in
    let x2 := conds_where W KWhere NoParts [(VStr (lit "id")); (get VNone x1)] [] in
    (is_ok (x1))
    && (is_ok ((snd x2)))
    && (says (conds_str (text E) (lit "WHERE") (fst x2)) (lit "WHERE ""id"" NOT IN (23, 34, 45)"))) = true.
Proof. vm_compute. reflexivity. Qed.

(* tests/queryparts/test_where.py: test_value_as_generator *)
Example t_where_test_value_as_generator :
  let E := env0 BSql in let W := pure_world E in
    (let x1 := conds_where W KWhere NoParts [(VStr (lit "col")); (VSeq KGen [VInt 0; VInt 1; VInt 2; VInt 3; VInt 4])] [] in
    (is_ok ((snd x1)))
    && (says (conds_str (text E) (lit "WHERE") (fst x1)) (lit "WHERE ""col"" IN (0, 1, 2, 3, 4)"))
    && (says (conds_str (text E) (lit "WHERE") (fst x1)) (lit "WHERE ""col"" IN (0, 1, 2, 3, 4)"))) = true.
Proof. vm_compute. reflexivity. Qed.

(* tests/queryparts/test_where.py: test_value_as_xrange *)
Example t_where_test_value_as_xrange :
  let E := env0 BSql in let W := pure_world E in
    (let x1 := conds_where W KWhere NoParts [(VStr (lit "id")); (VSeq KRange [VInt 0; VInt 1; VInt 2])] [] in
    (is_ok ((snd x1)))
    && (says (conds_str (text E) (lit "WHERE") (fst x1)) (lit "WHERE ""id"" IN (0, 1, 2)"))) = true.
Proof. vm_compute. reflexivity. Qed.

(* tests/queryparts/test_where.py: test_value_as_none *)
Example t_where_test_value_as_none :
  let E := env0 BSql in let W := pure_world E in
    (let x1 := conds_where W KWhere NoParts [(VStr (lit "col")); VNone] [] in
    (is_ok ((snd x1)))
    && (says (conds_str (text E) (lit "WHERE") (fst x1)) (lit "WHERE ""col"" IS NULL"))) = true.
Proof. vm_compute. reflexivity. Qed.

(* tests/queryparts/test_where.py: test_value_as_not_none *)
Example t_where_test_value_as_not_none :
  let E := env0 BSql in let W := pure_world E in
    (let x1 := mk_rel RIsNot VNone in
    let x2 := conds_where W KWhere NoParts [(VStr (lit "col")); (get VNone x1)] [] in
    (is_ok (x1))
    && (is_ok ((snd x2)))
    && (says (conds_str (text E) (lit "WHERE") (fst x2)) (lit "WHERE ""col"" IS NOT NULL"))) = true.
Proof. vm_compute. reflexivity. Qed.

(* tests/queryparts/test_where.py: test_copy *)
Example t_where_test_copy :
  let E := env0 BSql in let W := pure_world E in
    (let x1 := conds_where W KWhere NoParts [(VDict [((VStr (lit "id")), (VInt 42))])] [] in
    let x2 := conds_where W KWhere (fst x1) [(VDict [((VStr (lit "name")), (VStr (lit "Alan")))])] [] in
    (is_ok ((snd x1)))
    && (is_ok ((snd x2)))
    && (says (conds_str (text E) (lit "WHERE") (fst x1)) (lit "WHERE ""id"" = 42"))
    && (says (conds_str (text E) (lit "WHERE") (fst x2)) (lit "WHERE ""id"" = 42 AND ""name"" = 'Alan'"))) = true.
Proof. vm_compute. reflexivity. Qed.

(* tests/queryparts/test_where.py: test_equals *)
Example t_where_test_equals :
  let E := env0 BSql in let W := pure_world E in
    (let x1 := conds_where W KWhere NoParts [(VDict [((VStr (lit "id")), (VInt 42))])] [] in
    (is_ok ((snd x1)))
    && (yes (list_eq (py_eq E) (fst x1) (fst x1)))) = true.
Proof. vm_compute. reflexivity. Qed.

(* tests/queryparts/test_where.py: test_not_equals *)
Example t_where_test_not_equals :
  let E := env0 BSql in let W := pure_world E in
    (let x1 := conds_where W KWhere NoParts [(VDict [((VStr (lit "id")), (VInt 42))])] [] in
    let x2 := conds_where W KWhere (fst x1) [(VDict [((VStr (lit "name")), (VStr (lit "Alan")))])] [] in
    (is_ok ((snd x1)))
    && (is_ok ((snd x2)))
    && (negb (yes (list_eq (py_eq E) (fst x2) (fst x1))))) = true.
Proof. vm_compute. reflexivity. Qed.

(* tests/queryparts/test_where.py: test_column_as_integer_exception *)
Example t_where_test_column_as_integer_exception :
  let E := env0 BSql in let W := pure_world E in
    (let x1 := conds_where W KWhere NoParts [(VInt 42); (VStr (lit "val"))] [] in
    (first_error [EInvalidArgument] [err_of ((snd x1))])) = true.
Proof. vm_compute. reflexivity. Qed.

(* tests/queryparts/test_where.py: test_column_as_float_exception *)
Example t_where_test_column_as_float_exception :
  let E := env0 BSql in let W := pure_world E in
    (let x1 := conds_where W KWhere NoParts [(VFloat (NFin false 5925048259759309 140737488355328)); (VStr (lit "val"))] [] in
    (first_error [EInvalidArgument] [err_of ((snd x1))])) = true.
Proof. vm_compute. reflexivity. Qed.

(* tests/queryparts/test_where.py: test_column_as_boolean_exception *)
Example t_where_test_column_as_boolean_exception :
  let E := env0 BSql in let W := pure_world E in
    (let x1 := conds_where W KWhere NoParts [(VBool true); (VStr (lit "val"))] [] in
    (first_error [EInvalidArgument] [err_of ((snd x1))])) = true.
Proof. vm_compute. reflexivity. Qed.

(* tests/queryparts/test_where.py: test_value_as_list_wrong_relation_exception *)
Example t_where_test_value_as_list_wrong_relation_exception :
  let E := env0 BSql in let W := pure_world E in
    (let x1 := mk_rel RLe (VSeq KTuple [(VInt 23); (VInt 34); (VInt 45)]) in
    let x2 := mk_rel RNe (VSeq KTuple [(VInt 23); (VInt 34); (VInt 45)]) in
    let x3 := mk_rel RLike (VSeq KTuple [(VInt 23); (VInt 34); (VInt 45)]) in
    (first_error [EInvalidArgument] [err_of (x1)])
    && (first_error [EInvalidArgument] [err_of (x2)])
    && (first_error [EInvalidArgument] [err_of (x3)])) = true.
Proof. vm_compute. reflexivity. Qed.

(* tests/queryparts/test_where.py: test_value_as_boolean_wrong_relation_exception *)
Example t_where_test_value_as_boolean_wrong_relation_exception :
  let E := env0 BSql in let W := pure_world E in
    (let x1 := mk_rel RGt (VBool true) in
    let x2 := mk_in RNotIn [(VBool true)] in
    let x3 := mk_rel RLike (VBool true) in
    (first_error [EInvalidArgument] [err_of (x1)])
    && (first_error [EInvalidArgument] [err_of (x2)])
    && (first_error [EInvalidArgument] [err_of (x3)])) = true.
Proof. vm_compute. reflexivity. Qed.

(* tests/queryparts/test_where.py: test_value_as_integer_wrong_relation_exception *)
Example t_where_test_value_as_integer_wrong_relation_exception :
  let E := env0 BSql in let W := pure_world E in
    (let x1 := mk_rel RLike (VInt 67) in
    let x2 := mk_in RIn [(VInt 67)] in
    (first_error [EInvalidArgument] [err_of (x1)])
    && (first_error [EInvalidArgument] [err_of (x2)])) = true.
Proof. vm_compute. reflexivity. Qed.

(* tests/queryparts/test_where.py: test_value_as_string_wrong_relation_exception *)
Example t_where_test_value_as_string_wrong_relation_exception :
  let E := env0 BSql in let W := pure_world E in
    (let x1 := mk_in RNotIn [(VInt 67)] in
    let x2 := mk_in RIn [(VInt 67)] in
    (first_error [EInvalidArgument] [err_of (x1)])
    && (first_error [EInvalidArgument] [err_of (x2)])) = true.
Proof. vm_compute. reflexivity. Qed.

(* tests/queryparts/test_where.py: test_simple_or *)
Example t_where_test_simple_or :
  let E := env0 BSql in let W := pure_world E in
    (let x1 := mk_Q W [] [((lit "x"), (VStr (lit "y")))] in
    let x2 := mk_Q W [] [((lit "y"), (VStr (lit "x")))] in
    let x3 := py_binop OpOr (get VNone x1) (get VNone x2) in
    let x4 := conds_where W KWhere NoParts [(get VNone x3)] [] in
    (is_ok (x1))
    && (is_ok (x2))
    && (is_ok (x3))
    && (is_ok ((snd x4)))
    && (says (conds_str (text E) (lit "WHERE") (fst x4)) (lit "WHERE (""x"" = 'y' OR ""y"" = 'x')"))) = true.
Proof. vm_compute. reflexivity. Qed.

(* tests/queryparts/test_where.py: test_simple_and *)
Example t_where_test_simple_and :
  let E := env0 BSql in let W := pure_world E in
    (let x1 := mk_Q W [] [((lit "x"), (VStr (lit "y")))] in
    let x2 := mk_Q W [] [((lit "y"), (VStr (lit "x")))] in
    let x3 := py_binop OpAnd (get VNone x1) (get VNone x2) in
    let x4 := conds_where W KWhere NoParts [(get VNone x3)] [] in
    (is_ok (x1))
    && (is_ok (x2))
    && (is_ok (x3))
    && (is_ok ((snd x4)))
    && (says (conds_str (text E) (lit "WHERE") (fst x4)) (lit "WHERE (""x"" = 'y' AND ""y"" = 'x')"))) = true.
Proof. vm_compute. reflexivity. Qed.

(* tests/queryparts/test_where.py: test_more_complicated *)
Example t_where_test_more_complicated :
  let E := env0 BSql in let W := pure_world E in
    (let x1 := mk_Q W [] [((lit "a"), (VInt 1))] in
    let x2 := mk_Q W [] [((lit "b"), (VInt 2))] in
    let x3 := py_binop OpAnd (get VNone x1) (get VNone x2) in
    let x4 := mk_Q W [] [((lit "c"), (VInt 3))] in
    let x5 := py_binop OpOr (get VNone x3) (get VNone x4) in
    let x6 := conds_where W KWhere NoParts [(get VNone x5)] [] in
    (is_ok (x1))
    && (is_ok (x2))
    && (is_ok (x3))
    && (is_ok (x4))
    && (is_ok (x5))
    && (is_ok ((snd x6)))
    && (says (conds_str (text E) (lit "WHERE") (fst x6)) (lit "WHERE ((""a"" = 1 AND ""b"" = 2) OR ""c"" = 3)"))) = true.
Proof. vm_compute. reflexivity. Qed.

(* tests/queryparts/test_where.py: test_more_conditions_in_q *)
Example t_where_test_more_conditions_in_q :
  let E := env0 BSql in let W := pure_world E in
    (let x1 := mk_Q W [] [((lit "a"), (VInt 42)); ((lit "b"), (VInt 24))] in
    let x2 := mk_Q W [] [((lit "x"), (VStr (lit "y")))] in
    let x3 := py_binop OpOr (get VNone x1) (get VNone x2) in
    let x4 := conds_where W KWhere NoParts [(get VNone x3)] [] in
    (is_ok (x1))
    && (is_ok (x2))
    && (is_ok (x3))
    && (is_ok ((snd x4)))
    && (says (conds_str (text E) (lit "WHERE") (fst x4)) (lit "WHERE ((""a"" = 42 AND ""b"" = 24) OR ""x"" = 'y')"))) = true.
Proof. vm_compute. reflexivity. Qed.

(* tests/queryparts/test_where.py: test_two_qobjects *)
Example t_where_test_two_qobjects :
  let E := env0 BSql in let W := pure_world E in
    (let x1 := mk_Q W [] [((lit "a"), (VInt 1))] in
    let x2 := mk_Q W [] [((lit "a"), (VInt 2))] in
    let x3 := py_binop OpOr (get VNone x1) (get VNone x2) in
    let x4 := mk_Q W [] [((lit "b"), (VInt 1))] in
    let x5 := mk_Q W [] [((lit "b"), (VInt 2))] in
    let x6 := py_binop OpOr (get VNone x4) (get VNone x5) in
    let x7 := conds_where W KWhere NoParts [(get VNone x3); (get VNone x6)] [] in
    (is_ok (x1))
    && (is_ok (x2))
    && (is_ok (x3))
    && (is_ok (x4))
    && (is_ok (x5))
    && (is_ok (x6))
    && (is_ok ((snd x7)))
    && (says (conds_str (text E) (lit "WHERE") (fst x7)) (lit "WHERE (""a"" = 1 OR ""a"" = 2) AND (""b"" = 1 OR ""b"" = 2)"))) = true.
Proof. vm_compute. reflexivity. Qed.

(* tests/queryparts/test_where.py: test_three_qobjects *)
Example t_where_test_three_qobjects :
  let E := env0 BSql in let W := pure_world E in
    (let x1 := mk_Q W [] [((lit "a"), (VInt 1))] in
    let x2 := mk_Q W [] [((lit "a"), (VInt 2))] in
    let x3 := py_binop OpOr (get VNone x1) (get VNone x2) in
    let x4 := mk_Q W [] [((lit "b"), (VInt 1))] in
    let x5 := mk_Q W [] [((lit "b"), (VInt 2))] in
    let x6 := py_binop OpOr (get VNone x4) (get VNone x5) in
    let x7 := mk_Q W [] [((lit "c"), (VInt 1))] in
    let x8 := conds_where W KWhere NoParts [(get VNone x3); (get VNone x6); (get VNone x7)] [] in
    (is_ok (x1))
    && (is_ok (x2))
    && (is_ok (x3))
    && (is_ok (x4))
    && (is_ok (x5))
    && (is_ok (x6))
    && (is_ok (x7))
    && (is_ok ((snd x8)))
    && (says (conds_str (text E) (lit "WHERE") (fst x8)) (lit "WHERE (""a"" = 1 OR ""a"" = 2) AND (""b"" = 1 OR ""b"" = 2) AND ""c"" = 1"))) = true.
Proof. vm_compute. reflexivity. Qed.

(* tests/queryparts/test_where.py: test_qobject_in_qobject *)
Example t_where_test_qobject_in_qobject :
  let E := env0 BSql in let W := pure_world E in
    (let x1 := mk_Q W [] [((lit "a"), (VInt 1))] in
    let x2 := mk_Q W [] [((lit "b"), (VInt 2))] in
    let x3 := py_binop OpOr (get VNone x1) (get VNone x2) in
    let x4 := mk_Q W [(get VNone x3)] [] in
    let x5 := mk_Q W [] [((lit "c"), (VInt 3))] in
    let x6 := py_binop OpAnd (get VNone x4) (get VNone x5) in
    let x7 := conds_where W KWhere NoParts [(get VNone x6)] [] in
    (is_ok (x1))
    && (is_ok (x2))
    && (is_ok (x3))
    && (is_ok (x4))
    && (is_ok (x5))
    && (is_ok (x6))
    && (is_ok ((snd x7)))
    && (says (conds_str (text E) (lit "WHERE") (fst x7)) (lit "WHERE ((""a"" = 1 OR ""b"" = 2) AND ""c"" = 3)"))) = true.
Proof. vm_compute. reflexivity. Qed.

(* tests/queryparts/test_where.py: test_not *)
Example t_where_test_not :
  let E := env0 BSql in let W := pure_world E in
    (let x1 := mk_Not W [] [((lit "a"), (VInt 1))] in
    let x2 := conds_where W KWhere NoParts [(get VNone x1)] [] in
    (is_ok (x1))
    && (is_ok ((snd x2)))
    && (says (conds_str (text E) (lit "WHERE") (fst x2)) (lit "WHERE NOT(""a"" = 1)"))) = true.
Proof. vm_compute. reflexivity. Qed.

(* tests/queryparts/test_where.py: test_not_with_q *)
Example t_where_test_not_with_q :
  let E := env0 BSql in let W := pure_world E in
    (let x1 := mk_Q W [] [((lit "a"), (VInt 1))] in
    let x2 := mk_Q W [] [((lit "b"), (VInt 2))] in
    let x3 := py_binop OpOr (get VNone x1) (get VNone x2) in
    let x4 := mk_Not W [(get VNone x3)] [] in
    let x5 := conds_where W KWhere NoParts [(get VNone x4)] [] in
    (is_ok (x1))
    && (is_ok (x2))
    && (is_ok (x3))
    && (is_ok (x4))
    && (is_ok ((snd x5)))
    && (says (conds_str (text E) (lit "WHERE") (fst x5)) (lit "WHERE NOT((""a"" = 1 OR ""b"" = 2))"))) = true.
Proof. vm_compute. reflexivity. Qed.

(* tests/queryparts/test_where.py: test_exists *)
Example t_where_test_exists :
  let E := env0 BSql in let W := pure_world E in
    (let x1 := mk_select_from W [(VStr (lit "t2"))] [] in
    let x2 := sel_step W (get empty_select x1) (SWhere [] [((lit "col"), (VSqlR (VStr (lit "t1.col"))))]) in
    let x3 := conds_where W KWhere NoParts [(VExists (VSelect (fst x2)))] [] in
    (is_ok (x1))
    && (is_ok ((snd x2)))
    && (is_ok ((snd x3)))
    && (says (conds_str (text E) (lit "WHERE") (fst x3)) (lit "WHERE EXISTS(SELECT * FROM ""t2"" WHERE ""col"" = ""t1"".""col"")"))) = true.
Proof. vm_compute. reflexivity. Qed.

(* Tests not translated (14 of 476):
   tests/test_sqlpuzzle.py t_sqlpuzzle_test_compare_column_with_custom: constructor Column
   tests/test_sqlpuzzle.py t_sqlpuzzle_test_sql_value: assert Call(func=Name(id='isinstance', ctx=Load()), args=[Call(func=Attribute(value=Nam
   tests/test_sqlpuzzle.py t_sqlpuzzle_test_sql_reference: assert Call(func=Name(id='isinstance', ctx=Load()), args=[Call(func=Attribute(value=Nam
   tests/common/test_argsparser.py t_argsparser_test_min_bigger_than_max_exception: raises AssertionError
   tests/common/test_argsparser.py t_argsparser_test_dict_too_few_exception: raises AssertionError
   tests/queries/test_query.py t_query_test_eq: constructor Query
   tests/queries/test_query.py t_query_test_non_exist_property: constructor Query
   tests/queries/test_select.py t_select_test_full_join: with
   tests/queries/test_union.py t_union_test_has_no_property: has
   tests/queries/test_union.py t_union_test_copy: AugAssign
   tests/queries/test_union.py t_union_test_not_equals: AugAssign
   tests/queryparts/test_tables.py t_tables_test_is_simple: assert Call(func=Attribute(value=Name(id='tables', ctx=Load()), attr='is_simple', ctx=L
   tests/queryparts/test_tables.py t_tables_test_is_not_simple: assert Call(func=Attribute(value=Name(id='tables', ctx=Load()), attr='is_simple', ctx=L
   tests/queryparts/test_tables.py t_tables_TestSimpleJoins_test_full_join_supported: with
*)
