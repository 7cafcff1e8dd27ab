(** Properties C01-C11: rendering of values and references.
    [text E (VSqlV v)] is str(sqlpuzzle.V(v)), [text E (VSqlR v)] is str(sqlpuzzle.R(v)):
    the value and the reference rendering used in every clause.  [e_be E] is the
    configured backend.  Specifications: SpecLex.v, SpecRead.v, SpecRef.v. *)
From Coq Require Import QArith Qabs.
From Verif Require Import Base NumFmt Value Render SpecLex SpecRead SpecRef PfLiterals Demo.
Open Scope N_scope.

(** C01 *)
Theorem C01_string_literal_backslash : forall E s, ~ reference_shaped (quote_of (e_be E)) s ->
  exists t, text E (VSqlV (VStr s)) = Ok t /\
  forall rest, no_quote_first rest -> tokens mysql_sql (t ++ rest) = TStr s :: tokens mysql_sql rest.
Proof. exact string_literal_bs. Qed.
Print Assumptions C01_string_literal_backslash.
Example C01_example : text (demo BMySql) (VSqlV (vs "it's \'; DROP TABLE x; --")) = Ok (lit "'it''s \\''; DROP TABLE x; --'")
  /\ tokens mysql_sql (lit "'it''s \\''; DROP TABLE x; --'") = [TStr (lit "it's \'; DROP TABLE x; --")]
  /\ ~ reference_shaped 96 (lit "it's \'; DROP TABLE x; --").
Proof. split; [vm_compute; reflexivity|]. split; [vm_compute; reflexivity|]. apply no_quote_is_value. vm_compute. intuition discriminate. Qed.

(** C02 *)
Theorem C02_string_literal_standard : forall E d s, d = standard_sql \/ d = postgres_sql ->
  ~ reference_shaped (quote_of (e_be E)) s ->
  exists t s', text E (VSqlV (VStr s)) = Ok t /\
  (forall rest, no_quote_first rest -> tokens d (t ++ rest) = TStr s' :: tokens d rest) /\
  (s' = s <-> ~ In 92 s /\ ~ In 10 s).
Proof. exact string_literal_std. Qed.
Print Assumptions C02_string_literal_standard.
Example C02_example : text (demo BPostgres) (VSqlV (vs "a\b")) = Ok (lit "'a\\b'")
  /\ tokens postgres_sql (lit "'a\\b'") = [TStr (lit "a\\b")]
  /\ ~ reference_shaped 34 (lit "a\b").
Proof. split; [vm_compute; reflexivity|]. split; [vm_compute; reflexivity|]. apply no_quote_is_value. vm_compute. intuition discriminate. Qed.

(** C03: false in general. A string value can leave the quotes. *)
Theorem C03_value_never_code_refuted : exists E s t, text E (VSqlV (VStr s)) = Ok t /\
  In (TCode 59) (tokens (dialect_of (e_be E)) t) /\ In TComment (tokens (dialect_of (e_be E)) t).
Proof.
  exists (demo BSql), (lit """"""""".""; DROP TABLE x; --"""). eexists.
  split; [vm_compute; reflexivity|]. vm_compute. intuition.
Qed.
Print Assumptions C03_value_never_code_refuted.
(** What holds: strings without two quote characters in a row.  Missing for the full
    property: strings with doubled quotes (refuted above). *)
Theorem C03_value_never_code_partial : forall E s t, ~ doubled (quote_of (e_be E)) s ->
  text E (VSqlV (VStr s)) = Ok t ->
  (exists s', forall rest, no_quote_first rest ->
     tokens (dialect_of (e_be E)) (t ++ rest) = TStr s' :: tokens (dialect_of (e_be E)) rest)
  \/ (exists segs, forall rest, no_quote_first rest ->
     tokens (dialect_of (e_be E)) (t ++ rest) = path_tokens segs ++ tokens (dialect_of (e_be E)) rest).
Proof. exact value_never_code. Qed.
Print Assumptions C03_value_never_code_partial.
Example C03_example : text (demo BSql) (VSqlV (vs """t"".""a;b""")) = Ok (lit """t"".""a;b""")
  /\ tokens standard_sql (lit """t"".""a;b""") = path_tokens [lit "t"; lit "a;b"].
Proof. split; vm_compute; reflexivity. Qed.

(** C04 *)
Theorem C04_identifier_quoting : forall E n, ~ In (quote_of (e_be E)) n ->
  exists t, text E (VSqlR (VStr n)) = Ok t /\
  (forall rest, no_quote_first rest ->
     tokens (dialect_of (e_be E)) (t ++ rest)
     = path_tokens (name_segments n) ++ tokens (dialect_of (e_be E)) rest).
Proof. exact identifier_quoting. Qed.
Print Assumptions C04_identifier_quoting.
Example C04_example : text (demo BMySql) (VSqlR (vs "db.my table.*")) = Ok (lit "`db`.`my table`.*")
  /\ tokens mysql_sql (lit "`db`.`my table`.*") = [TId (lit "db"); TCode 46; TId (lit "my table"); TCode 46; TCode 42]
  /\ name_segments (lit "db.my table.*") = [lit "db"; lit "my table"; lit "*"].
Proof. repeat split; vm_compute; reflexivity. Qed.
(** Names containing the quote character are not kept inside quotes. *)
Theorem C04_names_with_quotes_refuted : exists E n t, text E (VSqlR (VStr n)) = Ok t /\
  In (TCode 59) (tokens (dialect_of (e_be E)) t) /\ In TComment (tokens (dialect_of (e_be E)) t).
Proof.
  exists (demo BSql), (lit "id"" FROM t; DROP TABLE x; --"). eexists.
  split; [vm_compute; reflexivity|]. vm_compute. intuition.
Qed.
Print Assumptions C04_names_with_quotes_refuted.

(** C05 *)
Theorem C05_reference_idempotent : forall E n t, ~ In (quote_of (e_be E)) n ->
  text E (VSqlR (VStr n)) = Ok t -> text E (VSqlR (VStr t)) = Ok t.
Proof. exact reference_twice. Qed.
Print Assumptions C05_reference_idempotent.
Example C05_example : text (demo BSql) (VSqlR (vs "a.b")) = Ok (lit """a"".""b""")
  /\ text (demo BSql) (VSqlR (vs """a"".""b""")) = Ok (lit """a"".""b""").
Proof. split; vm_compute; reflexivity. Qed.

(** C06 *)
Theorem C06_which_strings_are_references : forall E s,
  (reference_shaped (quote_of (e_be E)) s -> text E (VSqlV (VStr s)) = text E (VSqlR (VStr s))) /\
  (reference_shaped (quote_of (e_be E)) s <-> ~ exists t, text E (VSqlV (VStr s)) = Ok (39 :: t)).
Proof. exact which_references. Qed.
Print Assumptions C06_which_strings_are_references.
Theorem C06_no_quote_is_value : forall q s, ~ In q s -> ~ reference_shaped q s.
Proof. exact no_quote_is_value. Qed.
Print Assumptions C06_no_quote_is_value.
Example C06_example :
  text (demo BSql) (VSqlV (vs " ""a"".b ")) = Ok (lit """ "".""a"".""b """) /\
  text (demo BSql) (VSqlV (vs "a.b")) = Ok (lit "'a.b'") /\
  text (demo BSql) (VSqlV (vs """a"".b.c.d")) = Ok (lit "'""a"".b.c.d'").
Proof. repeat split; vm_compute; reflexivity. Qed.

(** C07 *)
Theorem C07_integers_exact : forall E z,
  exists t, text E (VSqlV (VInt z)) = Ok t /\ read_int t = Some z /\ canonical_int t.
Proof. exact int_exact. Qed.
Print Assumptions C07_integers_exact.
Theorem C07_booleans : forall E b, text E (VSqlV (VBool b)) =
  Ok (match e_be E with
      | BPostgres => if b then lit "true" else lit "false"
      | _ => if b then lit "1" else lit "0"
      end).
Proof. exact bool_text. Qed.
Print Assumptions C07_booleans.
Example C07_example : text (demo BSql) (VSqlV (VInt (-1203))) = Ok (lit "-1203").
Proof. vm_compute. reflexivity. Qed.

(** C08 *)
Theorem C08_five_decimals : forall E v x, (v = VFloat x \/ v = VDec x) -> forall q, num_value x = Some q ->
  exists t w, text E (VSqlV v) = Ok t /\ read_decimal t = Some w /\ decimals t = Some 5%nat
    /\ (Qabs (w - q) <= 5 # 1000000)%Q.
Proof. exact float_five. Qed.
Print Assumptions C08_five_decimals.
Example C08_example : text (demo BSql) (VSqlV (VFloat (NFin true 1999999 1000000))) = Ok (lit "-2.00000")
  /\ num_value (NFin true 1999999 1000000) = Some (-1999999 # 1000000)%Q.
Proof. split; vm_compute; reflexivity. Qed.

(** C09 *)
Theorem C09_bytes_lossless : forall E b, Forall (fun x => x < 256) b ->
  exists t pre h, text E (VSqlV (VBytes b)) = Ok t /\
    (forall rest, no_quote_first rest ->
       tokens (dialect_of (e_be E)) (t ++ rest) = TCode pre :: TStr h :: tokens (dialect_of (e_be E)) rest) /\
    match e_be E with
    | BPostgres => pre = 69 /\ exists h', h = 92 :: 120 :: h' /\ unhex h' = Some b
    | _ => pre = 120 /\ unhex h = Some b
    end.
Proof. exact bytes_lossless. Qed.
Print Assumptions C09_bytes_lossless.
Example C09_example : text (demo BMySql) (VSqlV (VBytes [0; 255; 39])) = Ok (lit "x'00ff27'")
  /\ text (demo BPostgres) (VSqlV (VBytes [0; 255; 39])) = Ok (lit "E'\\x00ff27'").
Proof. split; vm_compute; reflexivity. Qed.

(** C10 *)
Theorem C10_date : forall E d, valid_date d -> exists t s, text E (VSqlV (VDate d)) = Ok t /\
  (forall rest, no_quote_first rest ->
    tokens (dialect_of (e_be E)) (t ++ rest) = TStr s :: tokens (dialect_of (e_be E)) rest) /\
  read_iso_date s = Some d.
Proof. exact date_literal. Qed.
Print Assumptions C10_date.
Theorem C10_datetime : forall E d tm, valid_date d -> valid_time tm ->
  exists t s, text E (VSqlV (VDatetime d tm)) = Ok t /\
  (forall rest, no_quote_first rest ->
    tokens (dialect_of (e_be E)) (t ++ rest) = TStr s :: tokens (dialect_of (e_be E)) rest) /\
  read_iso_datetime s = Some (d, tm).
Proof. exact datetime_literal. Qed.
Print Assumptions C10_datetime.
Example C10_example :
  text (demo BSql) (VSqlV (VDatetime {| d_year := 987; d_month := 1; d_day := 2 |}
    {| t_hour := 3; t_min := 4; t_sec := 5; t_us := 60 |})) = Ok (lit "'0987-01-02T03:04:05.000060'").
Proof. vm_compute. reflexivity. Qed.

(** C11 *)
Theorem C11_sequences : forall E k l t, k <> KGen ->
  (text E (VSqlV (VSeq k l)) = Ok t <->
   l <> [] /\ exists ts, Forall2 (fun x tx => text E (VSqlV x) = Ok tx) l ts
                         /\ t = lit "(" ++ sjoin (lit ", ") ts ++ lit ")").
Proof. exact seq_elements. Qed.
Print Assumptions C11_sequences.
Theorem C11_empty_rejected : forall E k, k <> KGen -> text E (VSqlV (VSeq k [])) = Err EInvalidArgument.
Proof. exact seq_empty. Qed.
Print Assumptions C11_empty_rejected.
Example C11_example :
  text (demo BSql) (VSqlV (VSeq KTuple [VInt 1; vs "a"; VSeq KList [VNone; VBool true]])) = Ok (lit "(1, 'a', (NULL, 1))").
Proof. vm_compute. reflexivity. Qed.
