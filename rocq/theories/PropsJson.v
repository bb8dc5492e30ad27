(* JSON: session files and the sessions clients are told: C80, C81. *)
From Coq Require Import Strings.String.
From Coq Require Import List Arith NArith ZArith Lia Bool.
From Verif Require Import BaseBytes BaseConc SpecText ModelMessage ModelKey ModelPath ModelFiles ModelJson SpecKey SpecFiles SpecJson
  ProofKey ProofFiles ProofFiles2 ProofFiles3 ProofFiles4 ProofJson ProofJson2 ProofJson3 ProofJson4 ProofJson5 ProofJson6 ExampleFiles ExampleJson.
Import ListNotations.
Open Scope nat_scope.
Definition txt (s : string) : bytes := list_byte_of_string s.

(* ================= C80 ================= *)
(* the texts that are read are the texts of the grammar *)
Theorem C80_grammar : forall s j, parse s = Some j <-> text_of j s.
Proof. exact parse_spec. Qed.
Print Assumptions C80_grammar.
(* strings: what is written, what is read, and what they come to *)
Theorem C80_quoted : forall s q, quoted_as s q <-> q = esc 0 s.
Proof. exact esc_spec. Qed.
Print Assumptions C80_quoted.
Theorem C80_unquoted : forall raw s, chars raw -> (denotes raw s <-> s = unq 0 raw).
Proof. exact unq_spec. Qed.
Print Assumptions C80_unquoted.
Theorem C80_strings : forall s, chars (esc 0 s) /\ denotes (esc 0 s) (coerce 0 s) /\ coerced s (coerce 0 s) /\ (coerce 0 s = s <-> utf8_wf s).
Proof.
  intros s. split; [apply esc_chars|]. split; [rewrite <- esc_unq; apply unq_denotes, esc_chars|]. split; [apply coerce_coerced|apply coerce_id].
Qed.
Print Assumptions C80_strings.
(* what is written is UTF-8 without <, > and & in strings *)
Theorem C80_no_markup : forall s, utf8_wf (esc 0 s) /\ Forall (fun b => ~ In (b2N b) [60; 62; 38]%N) (esc 0 s).
Proof. intros s. split; [apply esc_wf|apply esc_safe]. Qed.
Print Assumptions C80_no_markup.
(* infos as trees *)
Theorem C80_maps : forall V (l m : list (bytes * V)), map_of l m <-> m = msort l.
Proof. exact @map_of_msort. Qed.
Print Assumptions C80_maps.
Theorem C80_wrote : forall F (T : texts F) v j, tree T v = Some j -> wrote T v (print j).
Proof. exact @tree_wrote. Qed.
Print Assumptions C80_wrote.
Theorem C80_carried : forall F (T : texts F) v, (exists j, tree T v = Some j) <-> carried T v.
Proof. exact @tree_iff. Qed.
Print Assumptions C80_carried.
(* session files: the text, when there is one, what is read from any text *)
Theorem C80_file_text : forall F (T : texts F) of_int f b, sound T of_int -> marshal (json_files T) f = Some b -> exists c l i,
  t_text T (sf_creation f) = Some c /\ t_text T (sf_lookup f) = Some l /\ wrote T (GMap (sf_info f)) i /\
  b = n2b 123 :: commas [field 99 (in_quotes c); field 108 (in_quotes l); field 105 i] ++ [n2b 125].
Proof. intros F T of_int f b S. exact (file_wrote T of_int S f b). Qed.
Print Assumptions C80_file_text.
Theorem C80_file_fails_iff : forall F (T : texts F) of_int f, sound T of_int -> ((exists b, marshal (json_files T) f = Some b) <->
  (exists x, t_text T (sf_creation f) = Some x) /\ (exists x, t_text T (sf_lookup f) = Some x) /\ carried T (GMap (sf_info f))).
Proof. intros F T of_int f S. exact (marshal_file_iff T of_int S f). Qed.
Print Assumptions C80_file_fails_iff.
Theorem C80_file_read : forall F (T : texts F) of_int b f, sound T of_int -> (unmarshal (json_files T) b = Some f <->
  (text_of JNull b /\ f = MkSfile year_one year_one None) \/
  exists l vc vl vi, text_of (JObj l) b /\ picks names_c l vc /\ picks names_l l vl /\ picks names_i l vi /\
    times T year_one vc (sf_creation f) /\ times T year_one vl (sf_lookup f) /\ infos T None vi (sf_info f)).
Proof. intros F T of_int b f S. exact (file_read T of_int S b f). Qed.
Print Assumptions C80_file_read.
(* so session files are what C47 to C57 and C70 need *)
Theorem C80_faithful : forall F (T : texts F) of_int, sound T of_int -> faithful (json_files T) (become_info of_int).
Proof. exact @files_faithful. Qed.
Print Assumptions C80_faithful.
Theorem C80_found_partial : forall F (T : texts F) of_int e dir h1 k cr lo i h2 now r l3 s', sound T of_int -> dir <> [] ->
  SpecFiles.runs (json_files T) e dir empty_fs (h1 ++ (HCreate k cr lo i, RDone) :: h2 ++ (HLookup k now, r) :: l3) s' ->
  Forall (usable e dir) (map fst (h1 ++ (HCreate k cr lo i, RDone) :: h2 ++ (HLookup k now, r) :: l3)) ->
  Forall (left_alone k) (map fst h2) ->
  r = RFound cr (last_lookup k lo (map fst h2)) (become_info of_int i).
Proof. intros F T of_int e dir h1 k cr lo i h2 now r l3 s' S. exact (manager_found (json_files T) (become_info of_int) e dir h1 k cr lo i h2 now r l3 s' (files_faithful T of_int S)). Qed.
Print Assumptions C80_found_partial.
(* infos that come back as they were *)
Theorem C80_same : forall F (T : texts F) of_int f b m, sound T of_int -> sf_info f = Some m -> kept (GMap (Some m)) ->
  marshal (json_files T) f = Some b -> unmarshal (json_files T) b = Some f.
Proof. intros F T of_int f b m S. exact (same_info T of_int S f b m). Qed.
Print Assumptions C80_same.
Theorem C80_read_again : forall F (T : texts F) of_int b f, sound T of_int -> unmarshal (json_files T) b = Some f ->
  match sf_info f with None => True | Some m => kept (GMap (Some m)) end.
Proof.
  intros F T of_int b f S H. apply (unmarshal_good T of_int S) in H as (_ & _ & G). destruct (sf_info f) as [m|]; [|exact Logic.I]. destruct G as [I G].
  constructor; [exact I|]. eapply Forall_impl; [|exact G]. cbv beta. tauto.
Qed.
Print Assumptions C80_read_again.
(* not all do: integers come back as floats, nil slices as nil, and entries can be lost *)
Theorem C80_same_refuted : forall F (T : texts F) of_int c l k z s1 s2, sound T of_int -> in_years c -> in_years l -> utf8_wf k -> (- 2 ^ 63 <= z < 2 ^ 64)%Z ->
  (exists b, marshal (json_files T) (MkSfile c l (Some [(k, GInt z)])) = Some b /\
     unmarshal (json_files T) b = Some (MkSfile c l (Some [(k, GFloat (of_int z))]))) /\
  (exists b, marshal (json_files T) (MkSfile c l (Some [(k, GSlice None)])) = Some b /\
     unmarshal (json_files T) b = Some (MkSfile c l (Some [(k, GNil)]))) /\
  (exists b, marshal (json_files T) (MkSfile c l (Some [([xfe], GStr s1); ([xff], GStr s2)])) = Some b /\
     unmarshal (json_files T) b = Some (MkSfile c l (Some [(ufffd, GStr (coerce 0 s2))]))).
Proof.
  intros F T of_int c l k z s1 s2 S C L K Z. split; [exact (int_info T of_int S c l k z C L K Z)|]. split; [exact (nil_info T of_int S c l k C L K)|exact (lost_entry T of_int S c l s1 s2 C L)].
Qed.
Print Assumptions C80_same_refuted.
Example C80_sound : sound plain_texts (fun z => z).
Proof. exact plain_sound. Qed.
Example C80_case :
  let f := MkSfile 1542412800000000000 1542412800000000001 (Some [(txt "name", GStr (txt "a<b")); (txt "id", GInt 7); (txt "l", GSlice (Some [GNil; GBool true]))]) in
  marshal (json_files plain_texts) f = Some (txt "{""c"":""1542412800000000000"",""l"":""1542412800000000001"",""i"":{""id"":7,""l"":[null,true],""name"":""a\u003cb""}}") /\
  unmarshal (json_files plain_texts) (txt " {""I"":{""x"":1,""y"":2}, ""l"":null, ""i"":{""y"":""\ud83d\uDE00\n"", ""x"":null}, ""C"":""5"", ""?"":[1.5e3]}") =
    Some (MkSfile 5 year_one (Some [(txt "x", GNil); (txt "y", GStr [xf0; x9f; x98; x80; x0a])])) /\
  unmarshal (json_files plain_texts) (txt "{""i"":{}} x") = None.
Proof. vm_compute. auto. Qed.
Example C80_kept_case : kept (F := Z) (GMap (Some [(txt "a", GFloat 1%Z); (txt "b", GSlice (Some [GNil; GStr (txt "x")]))])).
Proof.
  constructor.
  - constructor; [|constructor]. apply before_spec. reflexivity.
  - repeat constructor; try (apply ascii_wf; repeat constructor).
Qed.

Example C80_found_case : exists s', SpecFiles.runs (json_files plain_texts) everywhere (txt "/srv") empty_fs
  [(HCreate (txt "a") 10 10 (Some [(txt "n", GInt 3)]), RDone); (HLookup (txt "a") 11, RFound 10 10 (Some [(txt "n", GFloat 3)]))]%Z s'.
Proof. apply (ran 99) with (hs := [HCreate (txt "a") 10 10 (Some [(txt "n", GInt 3)]); HLookup (txt "a") 11]%Z). vm_compute. reflexivity. Qed.

(* ================= C81 ================= *)
(* what clients are told of a session, in Connection.CreateSession and after a restoration *)
Theorem C81_text : forall F (T : texts F) of_int s b, sound T of_int -> marshal_session T s = Some b -> exists k c l,
  quoted_as (en_key s) k /\ t_text T (sf_creation (en_file s)) = Some c /\ t_text T (sf_lookup (en_file s)) = Some l /\
  match sf_info (en_file s) with
  | None | Some [] => b = n2b 123 :: commas [field 107 (in_quotes k); field 99 (in_quotes c); field 108 (in_quotes l)] ++ [n2b 125]
  | i => exists t, wrote T (GMap i) t /\ b = n2b 123 :: commas [field 107 (in_quotes k); field 99 (in_quotes c); field 108 (in_quotes l); field 105 t] ++ [n2b 125]
  end.
Proof. intros F T of_int s b S. exact (session_wrote T of_int S s b). Qed.
Print Assumptions C81_text.
Theorem C81_fails_iff : forall F (T : texts F) of_int s, sound T of_int -> ((exists b, marshal_session T s = Some b) <->
  (exists x, t_text T (sf_creation (en_file s)) = Some x) /\ (exists x, t_text T (sf_lookup (en_file s)) = Some x) /\ carried T (GMap (sf_info (en_file s)))).
Proof. intros F T of_int s S. exact (marshal_session_iff T of_int S s). Qed.
Print Assumptions C81_fails_iff.
Theorem C81_told : forall F (T : texts F) of_int s b, sound T of_int -> marshal_session T s = Some b ->
  unmarshal_session T b = Some (MkEncoded (coerce 0 (en_key s))
    (MkSfile (sf_creation (en_file s)) (sf_lookup (en_file s)) (told_info of_int (sf_info (en_file s))))) /\ utf8_wf b.
Proof. intros F T of_int s b S. exact (told T of_int S s b). Qed.
Print Assumptions C81_told.
Theorem C81_read : forall F (T : texts F) of_int b s, sound T of_int -> (unmarshal_session T b = Some s <->
  (text_of JNull b /\ s = MkEncoded [] (MkSfile year_one year_one None)) \/
  exists l vk vc vl vi, text_of (JObj l) b /\ picks names_k l vk /\ picks names_c l vc /\ picks names_l l vl /\ picks names_i l vi /\
    strings [] vk (en_key s) /\ times T year_one vc (sf_creation (en_file s)) /\ times T year_one vl (sf_lookup (en_file s)) /\ infos T None vi (sf_info (en_file s))).
Proof. intros F T of_int b s S. exact (session_read T of_int S b s). Qed.
Print Assumptions C81_read.
(* the key is the session's, if it is UTF-8, as the keys of the default generator are *)
Theorem C81_key_partial : forall F (T : texts F) of_int s b, sound T of_int -> marshal_session T s = Some b ->
  exists s', unmarshal_session T b = Some s' /\ (en_key s' = en_key s <-> utf8_wf (en_key s)).
Proof. intros F T of_int s b S. exact (told_key T of_int S s b). Qed.
Print Assumptions C81_key_partial.
Theorem C81_generated : forall rand b k, gives rand b -> generateSessionKey rand = Some k -> utf8_wf k.
Proof. exact generated_utf8. Qed.
Print Assumptions C81_generated.
(* keys of other generators need not be: the client is told another key *)
Theorem C81_key_refuted : forall F (T : texts F) of_int c l i, sound T of_int -> in_years c -> in_years l -> carried T (GMap i) ->
  forall k, ~ utf8_wf k -> exists b s', marshal_session T (MkEncoded k (MkSfile c l i)) = Some b /\ unmarshal_session T b = Some s' /\ en_key s' <> k.
Proof. intros F T of_int c l i S. exact (wrong_key T of_int S c l i). Qed.
Print Assumptions C81_key_refuted.
Example C81_case :
  let s := MkEncoded (txt "k""1") (MkSfile 10 20 (Some [])) in
  marshal_session plain_texts s = Some (txt "{""k"":""k\""1"",""c"":""10"",""l"":""20""}") /\
  unmarshal_session plain_texts (txt "{""k"":""k\""1"",""c"":""10"",""l"":""20""}") = Some (MkEncoded (txt "k""1") (MkSfile 10 20 None)) /\
  unmarshal_session plain_texts (utf8_of 0x7B ++ in_quotes (utf8_of 0x212A) ++ txt ":""x""}") = Some (MkEncoded (txt "x") (MkSfile year_one year_one None)).
Proof. vm_compute. auto. Qed.
Example C81_not_utf8 : ~ utf8_wf [x6b; xff] /\ carried plain_texts (GMap None).
Proof. split; [|constructor]. intros H. apply coerce_id in H. discriminate H. Qed.
