(** The texts of the SQL statements of pkg/backend/sqlite/driver.go, copied character by
    character by tools/gen_sqltext.py (do not edit by hand). *)
From Coq Require Import String.
Open Scope string_scope.

(** revSQL, pkg/backend/sqlite/driver.go:88-90 *)
Definition revSQL : string := "
		SELECT MAX(id) AS id
		FROM kine".

(** listSQL, pkg/backend/sqlite/driver.go:92-109 *)
Definition listSQL : string := "
		SELECT kv.id,
			name,
			CASE WHEN kv.created THEN kv.id ELSE kv.create_revision END AS create_revision,
			lease,
			value
		FROM kine AS kv
		JOIN (
			SELECT MAX(mkv.id) as id
			FROM kine AS mkv
			WHERE
				mkv.name >= CAST(? AS TEXT) AND mkv.name < CAST(? AS TEXT)
				AND mkv.id <= ?
			GROUP BY mkv.name
		) AS maxkv
	    	ON maxkv.id = kv.id
		WHERE kv.deleted = 0
		ORDER BY kv.name ASC, kv.id ASC".

(** listSqlV1_0, pkg/backend/sqlite/driver.go:128-147 *)
Definition listSqlV1_0 : string := "
		WITH maxkv AS (
			SELECT MAX(id) AS id
			FROM kine
			WHERE name >= CAST(? AS TEXT) AND name < CAST(? AS TEXT)
				AND id <= ?
			GROUP BY name
			HAVING deleted = 0
			ORDER BY name
		)
		SELECT kv.id,
			name,
			CASE
				WHEN kv.created THEN kv.id
				ELSE kv.create_revision
			END AS create_revision,
			lease,
			value
		FROM maxkv CROSS JOIN kine kv
			ON maxkv.id = kv.id".

(** revisionIntervalSQL, pkg/backend/sqlite/driver.go:149-157 *)
Definition revisionIntervalSQL : string := "
		SELECT (
			SELECT MAX(prev_revision)
			FROM kine
			WHERE name = 'compact_rev_key'
		) AS low, (
			SELECT MAX(id)
			FROM kine
		) AS high".

(** countRevisionSQL, pkg/backend/sqlite/driver.go:159-171 *)
Definition countRevisionSQL : string := "
		SELECT COUNT(*)
		FROM kine AS kv
		JOIN (
			SELECT MAX(mkv.id) as id
			FROM kine AS mkv
			WHERE
				mkv.name >= CAST(? AS TEXT) AND mkv.name < CAST(? AS TEXT)
				AND mkv.id <= ?
			GROUP BY mkv.name
		) AS maxkv
	    	ON maxkv.id = kv.id
		WHERE kv.deleted = 0".

(** countRevisionSQLV1_0, pkg/backend/sqlite/driver.go:173-182 *)
Definition countRevisionSQLV1_0 : string := "
		SELECT COUNT(*)
		FROM (
			SELECT MAX(id)
			FROM kine
			WHERE name >= CAST(? AS TEXT) AND name < CAST(? AS TEXT)
				AND id <= ?
			GROUP BY name
			HAVING deleted = 0
		)".

(** afterSQLPrefix, pkg/backend/sqlite/driver.go:184-189 *)
Definition afterSQLPrefix : string := "
		SELECT id, name, created, deleted, create_revision, prev_revision, lease, value, old_value
		FROM kine
		WHERE name >= CAST(? AS TEXT) AND name < CAST(? AS TEXT)
			AND ? < id AND id <= ?
		ORDER BY id ASC".

(** afterSQL, pkg/backend/sqlite/driver.go:191-195 *)
Definition afterSQL : string := "
		SELECT id, name, created, deleted, create_revision, prev_revision, lease, value, old_value
		FROM kine
		WHERE id > ?
		ORDER BY id ASC".

(** ttlSQL, pkg/backend/sqlite/driver.go:197-209 *)
Definition ttlSQL : string := "
		SELECT kv.id,
			name,
			lease
		FROM kine AS kv
		JOIN (
			SELECT MAX(mkv.id) as id
			FROM kine AS mkv
			WHERE mkv.id <= ?
			GROUP BY mkv.name
		) AS maxkv
	    	ON maxkv.id = kv.id
		WHERE kv.deleted = 0 AND kv.lease != 0".

(** deleteRevSQL, pkg/backend/sqlite/driver.go:211-213 *)
Definition deleteRevSQL : string := "
		DELETE FROM kine
		WHERE id = ?".

(** updateCompactSQL, pkg/backend/sqlite/driver.go:215-218 *)
Definition updateCompactSQL : string := "
		UPDATE kine
		SET prev_revision = max(prev_revision, ?)
		WHERE name = 'compact_rev_key'".

(** deleteSQL, pkg/backend/sqlite/driver.go:220-236 *)
Definition deleteSQL : string := "
		INSERT INTO kine(name, created, deleted, create_revision, prev_revision, lease, value, old_value)
		SELECT
			name,
			0 AS created,
			1 AS deleted,
			CASE
				WHEN kine.created THEN id
				ELSE create_revision
			END AS create_revision,
			id AS prev_revision,
			lease,
			NULL AS value,
			value AS old_value
		FROM kine WHERE id = (SELECT MAX(id) FROM kine WHERE name = CAST(? AS TEXT))
			AND deleted = 0
			AND id = ?".

(** createSQL, pkg/backend/sqlite/driver.go:238-254 *)
Definition createSQL : string := "
		INSERT INTO kine(name, created, deleted, create_revision, prev_revision, lease, value, old_value)
		SELECT
			CAST(? AS TEXT) AS name,
			1 AS created,
			0 AS deleted,
			0 AS create_revision,
			COALESCE(id, 0) AS prev_revision,
			? AS lease,
			? AS value,
			NULL AS old_value
		FROM (
			SELECT MAX(id) AS id, deleted
			FROM kine
			WHERE name = CAST(? AS TEXT)
		) maxkv
		WHERE maxkv.deleted = 1 OR id IS NULL".

(** updateSQL, pkg/backend/sqlite/driver.go:256-272 *)
Definition updateSQL : string := "
		INSERT INTO kine(name, created, deleted, create_revision, prev_revision, lease, value, old_value)
		SELECT
			CAST(? AS TEXT) AS name,
			0 AS created,
			0 AS deleted,
			CASE
				WHEN kine.created THEN id
				ELSE create_revision
			END AS create_revision,
			id AS prev_revision,
			? AS lease,
			? AS value,
			value AS old_value
		FROM kine WHERE id = (SELECT MAX(id) FROM kine WHERE name = CAST(? AS TEXT))
			AND deleted = 0
			AND id = ?".

(** getSizeSQL, pkg/backend/sqlite/driver.go:274-276 *)
Definition getSizeSQL : string := "
		SELECT (page_count - freelist_count) * page_size
		FROM pragma_page_count(), pragma_page_size(), pragma_freelist_count()".

(** Literal argument of tx.ExecContext in tryCompact, pkg/backend/sqlite/driver.go:647-657 *)
Definition compactSupersededSQL : string := "
		DELETE FROM kine
		WHERE id IN (
			SELECT prev_revision
			FROM kine
			WHERE name != 'compact_rev_key'
				AND created = 0
				AND prev_revision != 0
				AND ? < id AND id <= ?
		)
	".

(** Literal argument of tx.ExecContext in tryCompact, pkg/backend/sqlite/driver.go:661-665 *)
Definition compactTombstonesSQL : string := "
		DELETE FROM kine
		WHERE deleted = 1
			AND ? < id AND id <= ?
	".

(** fmt.Sprintf("%s LIMIT ?", sql), pkg/backend/sqlite/driver.go:732 and 783 *)
Definition with_limit (sql : string) : string := (sql ++ " LIMIT ?").
