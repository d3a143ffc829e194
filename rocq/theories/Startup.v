(** Opening the page: the texts saved in cookies.
    Model: main.js 92-120 (autosave), ace_editor_setup.js 7-27, config.js 1-5. Of js-cookie 2: [cookie_text] is what set() stores, [text_of] what get() gives back, with
    the encoding of encodeURIComponent over the bytes of the text. A browser ignores a cookie whose name and value have more than 4096 bytes (RFC 6265bis, 5.6);
    cookies live 7 days, the page is opened again before. *)
From Verif Require Import Base Machine Compiler Parser ParserFacts Texts Grammar Roundtrip.
Open Scope string_scope.
Open Scope list_scope.

Definition hex (n : N) : ascii := ascii_of_N (if N.ltb n 10 then 48 + n else 55 + n).
Definition unhex (c : ascii) : option N :=
  let n := N_of_ascii c in
  if (N.leb 48 n && N.leb n 57)%bool then Some (n - 48)%N else if (N.leb 65 n && N.leb n 70)%bool then Some (n - 55)%N else None.
Fixpoint among (c : ascii) (s : string) : bool := match s with EmptyString => false | String d s' => Ascii.eqb c d || among c s' end.
(** letters, digits and these are written as they are *)
Definition bare (c : ascii) : bool :=
  let n := N_of_ascii c in
  ((N.leb 48 n && N.leb n 57) || (N.leb 65 n && N.leb n 90) || (N.leb 97 n && N.leb n 122) || among c "-_.!~*'()" || among c "#$&+:<>=/?@[]^`{}|")%bool.
Definition escape (c : ascii) : string :=
  if bare c then String c "" else String "%" (String (hex (N_of_ascii c / 16)) (String (hex (N_of_ascii c mod 16)) "")).
Fixpoint cookie_text (s : string) : string := match s with EmptyString => "" | String c s' => escape c +++ cookie_text s' end.
Fixpoint text_of (s : string) : string :=
  match s with
  | EmptyString => ""
  | String c r =>
      if Ascii.eqb c "%" then
        match r with
        | String a (String b r') =>
            match unhex a, unhex b with Some x, Some y => String (ascii_of_N (16 * x + y)) (text_of r') | _, _ => String c (text_of r) end
        | _ => String c (text_of r)
        end
      else String c (text_of r)
  end.

(** the values of the two cookies, if there are any *)
Record jar := { j_program : option string; j_query : option string }.
Definition store (name value : string) (old : option string) : option string :=
  if N.leb (N.of_nat (slen name + slen value)) 4096 then Some value else old.
(** main.js 96-106 *)
Definition autosave (program query : string) (j : jar) : jar :=
  {| j_program := store "programcode" (cookie_text program) (j_program j); j_query := store "querycode" (cookie_text query) (j_query j) |}.
(** ace_editor_setup.js 13-17, 24-28: an empty string counts as false *)
Definition filled (c : option string) (default : string) : string :=
  match c with Some v => match text_of v with EmptyString => default | t => t end | None => default end.
Definition opened (j : jar) : string * string := (filled (j_program j) "your_program_code_here.", filled (j_query j) "your_query_code_here.").

Lemma text_of_escape c r : text_of (escape c +++ r) = String c (text_of r).
Proof. destruct c as [[|] [|] [|] [|] [|] [|] [|] [|]]; reflexivity. Qed.
Theorem text_of_cookie s : text_of (cookie_text s) = s.
Proof. induction s as [|c s IH]; [reflexivity|]. cbn [cookie_text]. now rewrite text_of_escape, IH. Qed.
(** no character of a stored value is one that ends or separates cookies *)
Lemma stored_clean s : all_chars (fun c => negb (among c ("; ," +++ String "034" ""))) (cookie_text s) = true.
Proof.
  induction s as [|c s IH]; [reflexivity|]. cbn [cookie_text]. assert (K : forall r, all_chars (fun c => negb (among c ("; ," +++ String "034" ""))) r = true -> all_chars (fun c => negb (among c ("; ," +++ String "034" ""))) (escape c +++ r) = true).
  { intros r H. destruct c as [[|] [|] [|] [|] [|] [|] [|] [|]]; exact H. }
  exact (K _ IH).
Qed.
Lemma escape_len c : slen (escape c) = if bare c then 1 else 3.
Proof. unfold escape. destruct (bare c); reflexivity. Qed.
Lemma len_app a b : slen (a +++ b) = slen a + slen b.
Proof. induction a as [|c a IH]; cbn; [reflexivity|now rewrite IH]. Qed.
Lemma cookie_len s : slen s <= slen (cookie_text s) <= 3 * slen s.
Proof. induction s as [|c s IH]; [cbn; lia|]. cbn [cookie_text String.length]. rewrite len_app, escape_len. destruct (bare c); lia. Qed.

Definition fits (name text : string) : Prop := (N.of_nat (slen name + slen (cookie_text text)) <= 4096)%N.
Lemma store_fits name text old default : fits name text -> text <> "" -> filled (store name (cookie_text text) old) default = text.
Proof.
  intros F N. unfold store. rewrite (proj2 (N.leb_le _ _) F). cbn [filled]. rewrite text_of_cookie. destruct text; [now elim N|reflexivity].
Qed.
Theorem saved program query j : fits "programcode" program -> fits "querycode" query -> program <> "" -> query <> "" -> opened (autosave program query j) = (program, query).
Proof. intros F1 F2 N1 N2. unfold opened, autosave. cbn [j_program j_query]. now rewrite !store_fits. Qed.
(** enough: a third of the bytes *)
Lemma short_fits program query : (N.of_nat (slen program) <= 1361)%N -> (N.of_nat (slen query) <= 1362)%N -> fits "programcode" program /\ fits "querycode" query.
Proof. intros A B. unfold fits. pose proof (cookie_len program). pose proof (cookie_len query). cbn [String.length]. split; lia. Qed.
Theorem saved_empty query j : fst (opened (autosave "" query j)) = "your_program_code_here.".
Proof. reflexivity. Qed.
(** a text that is too long is not saved, and the one before comes back *)
Theorem saved_long old query program query' j : fits "programcode" old -> old <> "" -> ~ fits "programcode" program ->
  fst (opened (autosave program query' (autosave old query j))) = old.
Proof.
  intros F N L. unfold opened, autosave. cbn [fst j_program]. unfold store at 1. destruct (N.leb_spec (N.of_nat (slen "programcode" + slen (cookie_text program))) 4096) as [K|_]; [now elim L|].
  now apply store_fits.
Qed.
Fixpoint blanks (n : nat) : string := match n with 0 => "p." | S n' => String " " (blanks n') end.
Lemma blanks_long n : slen (cookie_text (blanks n)) = 3 * n + 2.
Proof. induction n as [|n IH]; [reflexivity|]. cbn [blanks cookie_text]. rewrite len_app, IH. change (slen (escape " ")) with 3. lia. Qed.
Lemma long_case : exists program, (N.of_nat (slen program) < 1400)%N /\ ~ fits "programcode" program.
Proof.
  exists (blanks (N.to_nat 1370)). split.
  - assert (K : forall n, slen (blanks n) = n + 2) by (induction n as [|n IH]; cbn [blanks String.length]; [reflexivity|now rewrite IH]). rewrite K. lia.
  - unfold fits. rewrite blanks_long. cbn [String.length]. lia.
Qed.
Lemma saved_case : opened (autosave ("p(a). % %41; x" +++ String "010" ("q :- " +++ String "034" "p.")) "p(X), [Y|Z] == X" {| j_program := None; j_query := None |}) =
  ("p(a). % %41; x" +++ String "010" ("q :- " +++ String "034" "p."), "p(X), [Y|Z] == X").
Proof. vm_compute. reflexivity. Qed.
