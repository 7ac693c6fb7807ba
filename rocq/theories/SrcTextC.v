(** Generated by tools/embed.py: the text of Go files of /repo, one string per line. *)
From Coq Require Import String List.
Import ListNotations.
Open Scope string_scope.

(** cmd/jsval/jsval.go *)
Definition text_cmd : list string := [
"package main";
"";
"import (";
"	""encoding/json""";
"	""fmt""";
"	""io""";
"	""log""";
"	""os""";
"";
"	""github.com/jessevdk/go-flags""";
"	""github.com/lestrrat-go/jspointer""";
"	""github.com/lestrrat-go/jsschema""";
"	""github.com/lestrrat-go/jsval""";
"	""github.com/lestrrat-go/jsval/builder""";
"	""github.com/lestrrat-go/jsval/server""";
")";
"";
"func main() {";
"	os.Exit(_main())";
"}";
"";
"// jsval schema.json [ref]";
"// jsval hyper-schema.json -ptr /path/to/schema1 -ptr /path/to/schema2 -ptr /path/to/schema3";
"// jsval server -listen :8080";
"";
"func _main() int {";
"	if len(os.Args) > 1 && os.Args[1] == ""server"" {";
"		return _server()";
"	}";
"";
"	return _cli()";
"}";
"";
"type serverOptions struct {";
"	Listen string  `short:""l"" long:""listen"" description:""the address to listen to"" default:"":8080""`";
"}";
"";
"func _server() int {";
"	var opts serverOptions";
"	if _, err := flags.Parse(&opts); err != nil {";
"		log.Printf(""%s"", err)";
"		return 1";
"	}";
"";
"	s := server.New()";
"	if err := s.Run(opts.Listen); err != nil {";
"		return 1";
"	}";
"";
"	return 0";
"}";
"";
"type cliOptions struct {";
"	Schema  string   `short:""s"" long:""schema"" description:""the source JSON schema file""`";
"	OutFile string   `short:""o"" long:""outfile"" description:""output file to generate""`";
"	Pointer []string `short:""p"" long:""ptr"" description:""JSON pointer(s) within the document to create validators with""`";
"	Prefix  string   `short:""P"" long:""prefix"" description:""prefix for validator name(s)""`";
"}";
"";
"func _cli() int {";
"	var opts cliOptions";
"	if _, err := flags.Parse(&opts); err != nil {";
"		log.Printf(""%s"", err)";
"		return 1";
"	}";
"";
"	f, err := os.Open(opts.Schema)";
"	if err != nil {";
"		log.Printf(""%s"", err)";
"		return 1";
"	}";
"	defer f.Close()";
"";
"	var m map[string]interface{}";
"	if err := json.NewDecoder(f).Decode(&m); err != nil {";
"		log.Printf(""%s"", err)";
"		return 1";
"	}";
"";
"	// Extract possibly multiple schemas out of the main JSON document.";
"	var schemas []*schema.Schema";
"	ptrs := opts.Pointer";
"	if len(ptrs) == 0 {";
"		s, err := schema.ReadFile(opts.Schema)";
"		if err != nil {";
"			log.Printf(""%s"", err)";
"			return 1";
"		}";
"		schemas = []*schema.Schema{s}";
"	} else {";
"		for _, ptr := range ptrs {";
"			log.Printf(""Resolving pointer '%s'"", ptr)";
"			resolver, err := jspointer.New(ptr)";
"			if err != nil {";
"				log.Printf(""%s"", err)";
"				return 1";
"			}";
"";
"			resolved, err := resolver.Get(m)";
"			if err != nil {";
"				log.Printf(""%s"", err)";
"				return 1";
"			}";
"";
"			m2, ok := resolved.(map[string]interface{})";
"			if !ok {";
"				log.Printf(""Expected map"")";
"				return 1";
"			}";
"";
"			s := schema.New()";
"			if err := s.Extract(m2); err != nil {";
"				log.Printf(""%s"", err)";
"				return 1";
"			}";
"			schemas = append(schemas, s)";
"		}";
"	}";
"";
"	b := builder.New()";
"";
"	validators := make([]*jsval.JSVal, len(schemas))";
"	for i, s := range schemas {";
"		v, err := b.BuildWithCtx(s, m)";
"		if err != nil {";
"			log.Printf(""%s"", err)";
"			return 1";
"		}";
"		if p := opts.Prefix; p != """" {";
"			v.Name = fmt.Sprintf(""%s%d"", p, i)";
"		}";
"		validators[i] = v";
"	}";
"";
"	var out io.Writer";
"";
"	out = os.Stdout";
"	if fn := opts.OutFile; fn != """" {";
"		f, err := os.Create(fn)";
"		if err != nil {";
"			log.Printf(""%s"", err)";
"			return 1";
"		}";
"		defer f.Close()";
"";
"		out = f";
"	}";
"";
"	g := jsval.NewGenerator()";
"	if err := g.Process(out, validators...); err != nil {";
"		log.Printf(""%s"", err)";
"		return 1";
"	}";
"";
"	return 0";
"}"
].

(** server/server.go *)
Definition text_server : list string := [
"package server";
"";
"import (";
"	""bytes""";
"	""encoding/json""";
"	""html/template""";
"	""io""";
"	""net/http""";
"	""sync""";
"";
"	""github.com/lestrrat-go/jsschema""";
"	""github.com/lestrrat-go/jsval""";
"	""github.com/lestrrat-go/jsval/builder""";
"	""github.com/pkg/errors""";
"	""golang.org/x/net/context""";
")";
"";
"const indexTmpl = `<!doctype html>";
"<html>";
"	<head>";
"		<title>JSVal Playground</title>";
"<style type=""text/css"">";
"<!--";
"	body {";
"		width: 800px;";
"	}";
"";
"	#json {";
"		width: 800px;";
"		height: 10em;";
"	}";
"";
"	#output {";
"		background-color: #eee;";
"		border: 1px solid #ccc;";
"		display: none;";
"		font-family: monospace;";
"		padding: 0em 2em 1em 2em;";
"		white-space: pre;";
"		width: 800px;";
"	}";
"-->";
"</style>";
"	</head>";
"	<body>";
"		<div id=""banner"">";
"			<div id=""head"" itemprop=""name"">The JSval Playground</div>";
"			<div id=""controls"">";
"				<input type=""button"" value=""Run"" id=""run"">";
"		</div>";
"		<div id=""wrap"">";
"			<textarea itemprop=""description"" id=""json"" name=""json"" autocorrect=""off"" autocomplete=""off"" autocapitalize=""off"" spellcheck=""false"">{";
"  ""type"": ""string"",";
"  ""enum"": [""foo"", ""bar"", ""baz""]";
"}";
"</textarea>";
"		</div>";
"		<div id=""output""></div>";
"<script src=""//ajax.googleapis.com/ajax/libs/jquery/2.2.4/jquery.min.js""></script>";
"<script type=""text/javascript"">";
"(function() {";
"	var updateCode = function(data, status, xhr) {";
"		$(""#output"").show();";
"		if (data.success) {";
"			$(""#output"").text(data[""code""]);";
"		} else {";
"			$(""#output"").text(""Failed to generate code: "" + data.message);";
"		}";
"	};";
"";
"	$(""#run"").click(function() {";
"		$.ajax({";
"			""type"": ""POST"",";
"			""url"": ""/generate.json"",";
"			""data"": $(""#json"").val(),";
"			""success"": updateCode,";
"			""dataType"": ""json""";
"		})";
"	})";
"})();";
"</script>";
"	</body>";
"</html>`";
"";
"type Server struct {";
"	mutex     sync.Mutex";
"	templates *template.Template";
"}";
"";
"func New() *Server {";
"	return &Server{}";
"}";
"";
"func (s *Server) getTemplates() (*template.Template, error) {";
"	s.mutex.Lock()";
"	defer s.mutex.Unlock()";
"";
"	if t := s.templates; t != nil {";
"		return t, nil";
"	}";
"";
"	var t *template.Template";
"	var root *template.Template";
"";
"	tmpls := map[string]string{";
"		""index.tmpl"": indexTmpl,";
"	}";
"	for name, body := range tmpls {";
"		if t == nil {";
"			t = template.New(name)";
"			root = t";
"		} else {";
"			t = t.New(name)";
"		}";
"";
"		if _, err := t.Parse(body); err != nil {";
"			return nil, errors.Wrapf(err, ""failed to parse template '%s'"", name)";
"		}";
"	}";
"";
"	s.templates = root";
"	return root, nil";
"}";
"";
"func (s *Server) Run(listen string) error {";
"	return http.ListenAndServe(listen, s)";
"}";
"";
"func (s *Server) ServeHTTP(w http.ResponseWriter, r *http.Request) {";
"	ctx := context.Background()";
"	switch r.URL.Path {";
"	case ""/"":";
"		s.httpIndex(ctx, w, r)";
"	case ""/generate.json"":";
"		s.httpGenerateValidator(ctx, w, r)";
"	default:";
"		http.NotFound(w, r)";
"	}";
"}";
"";
"func (s *Server) httpIndex(ctx context.Context, w http.ResponseWriter, r *http.Request) {";
"";
"	t, err := s.getTemplates()";
"	if err != nil {";
"		w.WriteHeader(http.StatusInternalServerError)";
"		w.Write([]byte(err.Error()))";
"		return";
"	}";
"";
"	buf := bytes.Buffer{}";
"	if err := t.ExecuteTemplate(&buf, ""index.tmpl"", nil); err != nil {";
"		w.WriteHeader(http.StatusInternalServerError)";
"		w.Write([]byte(err.Error()))";
"		return";
"	}";
"";
"	w.Header().Set(""Content-Type"", ""text/html; charset=utf-8"")";
"	w.WriteHeader(http.StatusOK)";
"	w.Write(buf.Bytes())";
"}";
"";
"func (s *Server) httpGenerateValidator(ctx context.Context, w http.ResponseWriter, r *http.Request) {";
"	resp := make(map[string]interface{})";
"";
"	buf := bytes.Buffer{}";
"	io.Copy(&buf, r.Body)";
"";
"	sc, err := schema.Read(bytes.NewReader(buf.Bytes()))";
"	if err != nil {";
"		resp[""success""] = false";
"		resp[""message""] = err.Error()";
"		json.NewEncoder(w).Encode(resp)";
"		return";
"	}";
"";
"	var m map[string]interface{}";
"	if err := json.NewDecoder(bytes.NewReader(buf.Bytes())).Decode(&m); err != nil {";
"		resp[""success""] = false";
"		resp[""message""] = err.Error()";
"		json.NewEncoder(w).Encode(resp)";
"		return";
"	}";
"";
"	b := builder.New()";
"	v, err := b.BuildWithCtx(sc, m)";
"	if err != nil {";
"		resp[""success""] = false";
"		resp[""message""] = err.Error()";
"		json.NewEncoder(w).Encode(resp)";
"		return";
"	}";
"";
"	buf.Reset()";
"	g := jsval.NewGenerator()";
"	if err := g.Process(&buf, v); err != nil {";
"		resp[""success""] = false";
"		resp[""message""] = err.Error()";
"		json.NewEncoder(w).Encode(resp)";
"		return";
"	}";
"";
"	w.Header().Set(""Content-Type"", ""application/json; charset=utf-8"")";
"	w.WriteHeader(http.StatusOK)";
"	resp[""success""] = true";
"	resp[""code""] = buf.String()";
"	json.NewEncoder(w).Encode(resp)";
"}"
].
