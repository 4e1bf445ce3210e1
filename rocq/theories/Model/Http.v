(** Addresses and requests: /repo/lolly/data/uri.cpp and /repo/lolly/io/http.hpp, http.cpp.
    The network is any function from requests to replies.  Of cpr is modelled: cpr::Header is a map in which names are
    compared without regard to case; a session sends the url, the headers and the user agent set in it; Download
    writes the body to the stream.  The response is a new tree, so that it is modelled as the list of its children
    (label and box), and boxes as values with their type; how trees are shared is Model/Tree.v.  Times are of any type.  The versions for
    WebAssembly (http.cpp:33-49), which return the initial response, are left out. *)
From Verif Require Import Base Model.Int Model.Str Model.Chars Model.Url Model.File Model.Hashmap Model.Iterator.
Local Open Scope Z_scope.

(** ** uri.cpp *)
(** u[1] (url.hpp:50), outside of tuples *)
Definition sub1 (u : url) : res url :=
  match u with
  | Concat a _ => Ok a
  | Or a _ => Ok a
  | Root p _ => Ok (Atom p)
  | Wild (Some s) => Ok (Atom s)
  | _ => UB
  end.
(** 17-20, 22-25 *)
Definition uri_host (u : url) : res str := let* v := sub2 u in let* w := sub1 v in Ok (as_string w).
Definition uri_path (u : url) : res str := let* v := sub2 u in let* w := sub2 v in Ok (lit "/" ++ as_string w).

(** ** http.hpp *)
(** 25-36 *)
Definition STATUS_CODE : Z := 1.
Definition TEXT : Z := 2.
Definition URL : Z := 3.
Definition ELAPSED : Z := 4.
Definition HEADER : Z := 5.

Section Http.
Variable T : Type.                                  (* double *)
Variable zero : T.                                  (* 0.0 *)
Variable hash : str -> Z.
Definition headers := hmap str str.
(** A box with its type *)
Inductive value := Long (z : Z) | String (s : str) | Double (t : T) | Map (m : headers).
Definition response := list (Z * value).
Definition new_map : res headers := hm_new (V := str) [] 1 1.
(** 42-53 *)
Definition http_response_init : res response :=
  let* m := new_map in
  Ok [(STATUS_CODE, Long 404); (TEXT, String []); (URL, String []); (STATUS_CODE, Double zero); (HEADER, Map m)].
(** 55-58, 60-63 *)
Definition http_response_ref (r : response) (op : Z) : res (Z * value) :=
  if op <? 1 then UB else match nth_error r (Z.to_nat (op - 1)) with Some x => Ok x | None => UB end.
Definition http_response_set (r : response) (op : Z) (x : Z * value) : res response :=
  if (1 <=? op) && (op <=? Z.of_nat (length r))
  then Ok (firstn (Z.to_nat (op - 1)) r ++ x :: skipn (Z.to_nat op) r) else UB.

(** ** http.cpp *)
Inductive method := GET | HEAD.
Record request := Request { method_of : method; target : str; fields : list (str * str); agent : str }.
Record reply := Reply { status : Z; text : str; elapsed : T; answered : list (str * str); body : str }.
(** hmap (key)= value in the loop of 70-74 *)
Fixpoint header_map (m : headers) (l : list (str * str)) : res headers :=
  match l with
  | [] => Ok m
  | (k, v) :: r => let* m' := hm_set seqb hash m (locase_all (c_path k)) (c_path v) in header_map m' r
  end.
(** response_to_tree (53-79) *)
Definition response_to_tree (r : reply) (u : str) : res response :=
  let* t := http_response_init in
  let* t := http_response_set t STATUS_CODE (STATUS_CODE, Long (status r)) in
  let* t := http_response_set t TEXT (TEXT, String (c_path (text r))) in
  let* t := http_response_set t URL (URL, String u) in
  let* t := http_response_set t ELAPSED (ELAPSED, Double (elapsed r)) in
  let* m := new_map in
  let* m := header_map m (answered r) in
  http_response_set t HEADER (HEADER, Map m).
(** header[k]= v of cpr::Header, which compares the names by tolower *)
Definition tolower (c : ascii) : ascii := if (65 <=? code c) && (code c <=? 90) then chr (code c + 32) else c.
Fixpoint cpr_set (l : list (str * str)) (k v : str) : list (str * str) :=
  match l with
  | [] => [(k, v)]
  | (k', v') :: r => if seqb (map tolower k) (map tolower k') then (k', v) :: r else (k', v') :: cpr_set r k v
  end.
(** as_cpr_header (81-90) *)
Fixpoint cpr_fields (m : headers) (ks : list str) (l : list (str * str)) : res (list (str * str)) :=
  match ks with
  | [] => Ok l
  | k :: r => let* v := hm_get seqb hash m k in cpr_fields m r (cpr_set l (c_path k) (c_path v))
  end.
Definition as_cpr_header (m : headers) : res (list (str * str)) :=
  let* ks := hm_iterate (S (Z.to_nat (hsize m))) m in cpr_fields m ks [].
(** 92-102, 104-114: the request and the response *)
Definition ask (mt : method) (u : url) (m : headers) : res request :=
  let* l := as_cpr_header m in
  let* a := hm_get seqb hash m (lit "User-Agent") in
  Ok (Request mt (c_path (as_string u)) l (c_path a)).
Definition http_get (net : request -> reply) (u : url) (m : headers) : res response :=
  let* q := ask GET u m in response_to_tree (net q) (as_string u).
Definition http_head (net : request -> reply) (u : url) (m : headers) : res response :=
  let* q := ask HEAD u m in response_to_tree (net q) (as_string u).
(** download (116-131); [opened]: the system lets the file be opened for writing.  The file is emptied
    when the stream is made, and gets the body. *)
Definition download (net : request -> reply) (opened : bool) (from to : url) (m : headers) (w : fs) : res (fs * response) :=
  let* q := ask GET from m in
  let r := net q in
  let p := canon w (c_path (as_string to)) in
  let w' := if opened && match nodes w p with Some Dir => false | _ => true end then set w p (Some (File (body r))) else w in
  let* t := response_to_tree r (as_string from) in
  Ok (w', t).
End Http.
